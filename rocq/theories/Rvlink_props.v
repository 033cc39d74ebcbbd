(** C100: RISC-V relocations put the right address into the instruction or the
    data.  C101: jumps to names in RISC-V code go where the assembly says. *)
From Coq Require Import ZArith List Bool Lia.
From Verif Require Import Base Rv_model Rv_spec Rvlink_model Rvlink_spec
  Rvlink_proof Rvlink_reloc_proof Rvlink_data_proof Rvlink_names_proof.
Import ListNotations.
Open Scope Z_scope.

(** ** C100 *)

(** A conditional branch in the code at [b], linked, branches to the target and
    is otherwise as before, as is the code after it; a target it cannot reach
    stops the linker. *)
Theorem C100_branches : forall tls hi b addr val o r1 r2 x rest,
  fetch b = Some (IBr o r1 r2 x, 4, rest) -> addr64 val ->
  (-4096 <= dist addr val < 4096 /\ dist addr val mod 2 = 0 ->
   exists b' d, relocate RBranch tls hi b addr val = Ok (b', hi) /\
     fetch b' = Some (IBr o r1 r2 d, 4, rest) /\ ux 64 (addr + d) = val) /\
  (~ (-4096 <= dist addr val < 4096 /\ dist addr val mod 2 = 0) ->
   relocate RBranch tls hi b addr val = Abort).
Proof.
  intros tls hi b addr val o r1 r2 x rest F V. split.
  - intros R. destruct (rel_branch tls hi b addr val o r1 r2 x rest F R) as (b' & E & F').
    exists b', (dist addr val). split; [exact E|]. split; [exact F'|]. apply dist_goes. exact V.
  - apply rel_branch_far.
Qed.
Print Assumptions C100_branches.

(** The same for the two-byte branches and jumps. *)
Theorem C100_compressed_branches : forall tls hi b addr val o r1 r2 x rest,
  fetch b = Some (IBr o r1 r2 x, 2, rest) -> addr64 val ->
  (-256 <= dist addr val < 256 /\ dist addr val mod 2 = 0 ->
   exists b' d, relocate RRvcBranch tls hi b addr val = Ok (b', hi) /\
     fetch b' = Some (IBr o r1 r2 d, 2, rest) /\ ux 64 (addr + d) = val) /\
  (~ (-256 <= dist addr val < 256 /\ dist addr val mod 2 = 0) ->
   relocate RRvcBranch tls hi b addr val = Abort).
Proof.
  intros tls hi b addr val o r1 r2 x rest F V. split.
  - intros R. destruct (rel_rvc_branch tls hi b addr val o r1 r2 x rest F R) as (b' & E & F').
    exists b', (dist addr val). split; [exact E|]. split; [exact F'|]. apply dist_goes. exact V.
  - apply rel_rvc_branch_far.
Qed.
Print Assumptions C100_compressed_branches.
Theorem C100_compressed_jumps : forall tls hi b addr val rd x rest,
  fetch b = Some (IJal rd x, 2, rest) -> addr64 val ->
  (-2048 <= dist addr val < 2048 /\ dist addr val mod 2 = 0 ->
   exists b' d, relocate RRvcJump tls hi b addr val = Ok (b', hi) /\
     fetch b' = Some (IJal rd d, 2, rest) /\ ux 64 (addr + d) = val) /\
  (~ (-2048 <= dist addr val < 2048 /\ dist addr val mod 2 = 0) ->
   relocate RRvcJump tls hi b addr val = Abort).
Proof.
  intros tls hi b addr val rd x rest F V. split.
  - intros R. destruct (rel_rvc_jump tls hi b addr val rd x rest F R) as (b' & E & F').
    exists b', (dist addr val). split; [exact E|]. split; [exact F'|]. apply dist_goes. exact V.
  - apply rel_rvc_jump_far.
Qed.
Print Assumptions C100_compressed_jumps.

(** A jump; what is missing: a target farther than 1 MiB should stop the
    linker. *)
Theorem C100_jumps_partial : forall tls hi b addr val rd x rest,
  fetch b = Some (IJal rd x, 4, rest) -> addr64 val ->
  - 2 ^ 20 <= dist addr val < 2 ^ 20 -> dist addr val mod 2 = 0 ->
  exists b' d, relocate RJal tls hi b addr val = Ok (b', hi) /\
    fetch b' = Some (IJal rd d, 4, rest) /\ ux 64 (addr + d) = val.
Proof.
  intros tls hi b addr val rd x rest F V R Ev.
  destruct (rel_jal tls hi b addr val rd x rest F (conj R Ev)) as (b' & E & F').
  exists b', (dist addr val). split; [exact E|]. split; [exact F'|]. apply dist_goes. exact V.
Qed.
Print Assumptions C100_jumps_partial.

(** Refuted: between 1 and 2 MiB the linker accepts the target and the jump goes
    2 MiB away from it. *)
Theorem C100_jumps_refuted : exists b addr val rest d,
  (exists x, fetch b = Some (IJal 0 x, 4, rest)) /\ addr64 addr /\ addr64 val /\
  exists b', relocate RJal 0 (0, 0) b addr val = Ok (b', (0, 0)) /\
    fetch b' = Some (IJal 0 d, 4, rest) /\ ux 64 (addr + d) = val - 2 ^ 21.
Proof.
  exists (w_jal 0 0), 0x400000, 0x500000, [], (- 2 ^ 20).
  split; [exists 0; reflexivity|]. split; [unfold addr64; lia|]. split; [unfold addr64; lia|].
  eexists. split; [vm_compute; reflexivity|]. split; reflexivity.
Qed.
Print Assumptions C100_jumps_refuted.

(** Two instructions, the first of which adds a large constant to its own
    address and the second a small one to that: an address or a call.  The
    constants add up to the distance.  What is missing: a target farther than
    2 GiB should stop the linker. *)
Theorem C100_address_pairs_partial : forall tls hi b addr val rd x c i y rest i0,
  fetch b = Some (IAuipc rd x, 4, c) -> fetch c = Some (i, 4, rest) -> with_lo i y = Some i0 ->
  addr64 val -> - 2 ^ 31 <= dist addr val + 0x800 < 2 ^ 31 ->
  exists b' c' i' h l, relocate RCall tls hi b addr val = Ok (b', hi) /\
    fetch b' = Some (IAuipc rd h, 4, c') /\ fetch c' = Some (i', 4, rest) /\
    with_lo i l = Some i' /\ ux 64 (addr + h + l) = val.
Proof.
  intros tls hi b addr val rd x c i y rest i0 F G W V R.
  assert (W' : exists i', with_lo i (sx 12 (dist addr val)) = Some i').
  { destruct i; try discriminate W; cbn [with_lo]; eauto. destruct o; try discriminate W; eauto. }
  destruct W' as (i' & W').
  destruct (rel_call tls hi b addr val rd x c i _ rest i' F G W' eq_refl R) as (b' & c' & E & F1 & F2).
  exists b', c', i', (dist addr val - sx 12 (dist addr val)), (sx 12 (dist addr val)).
  split; [exact E|]. split; [exact F1|]. split; [exact F2|]. split; [exact W'|].
  replace (addr + _ + _) with (addr + dist addr val) by lia. apply dist_goes. exact V.
Qed.
Print Assumptions C100_address_pairs_partial.

(** Refuted: 2 GiB away the linker accepts and the address is 4 GiB off. *)
Theorem C100_address_pairs_refuted : exists b addr val c rest b' c' h l,
  (exists x, fetch b = Some (IAuipc 1 x, 4, c)) /\ (exists x, fetch c = Some (IJalr 1 1 x, 4, rest)) /\
  addr64 addr /\ addr64 val /\
  relocate RCall 0 (0, 0) b addr val = Ok (b', (0, 0)) /\
  fetch b' = Some (IAuipc 1 h, 4, c') /\ fetch c' = Some (IJalr 1 1 l, 4, rest) /\
  addr + h + l = val - 2 ^ 32.
Proof.
  exists (asm_call_d 0), 0x100000000, 0x180000000, (w_jalr 1 1 0), [].
  eexists. eexists. eexists. eexists.
  split; [exists 0; reflexivity|]. split; [exists 0; reflexivity|].
  split; [unfold addr64; lia|]. split; [unfold addr64; lia|].
  split; [vm_compute; reflexivity|]. split; [reflexivity|]. split; reflexivity.
Qed.
Print Assumptions C100_address_pairs_refuted.

(** The two instructions linked one by one: the second names the place of the
    first, and uses its target whatever lies between them. *)
Theorem C100_address_parts_partial : forall tls hi0 b addr val rd x rest,
  fetch b = Some (IAuipc rd x, 4, rest) -> addr64 val ->
  - 2 ^ 31 <= dist addr val + 0x800 < 2 ^ 31 ->
  exists b' h hi l, relocate RPcrelHi tls hi0 b addr val = Ok (b', hi) /\
    fetch b' = Some (IAuipc rd h, 4, rest) /\ ux 64 (addr + h + l) = val /\
    (forall c addr2 i y i0 rest2, fetch c = Some (i, 4, rest2) -> with_lo i y = Some i0 ->
       exists c' i', relocate RPcrelLoI tls hi c addr2 addr = Ok (c', hi) /\
         fetch c' = Some (i', 4, rest2) /\ with_lo i l = Some i') /\
    (forall c addr2 i y i0 rest2, fetch c = Some (i, 4, rest2) -> with_st i y = Some i0 ->
       exists c' i', relocate RPcrelLoS tls hi c addr2 addr = Ok (c', hi) /\
         fetch c' = Some (i', 4, rest2) /\ with_st i l = Some i').
Proof.
  intros tls hi0 b addr val rd x rest F V R.
  destruct (rel_pcrel_hi tls hi0 b addr val rd x rest F R) as (b' & E & F').
  exists b', (dist addr val - sx 12 (dist addr val)), (addr, val), (sx 12 (dist addr val)).
  split; [exact E|]. split; [exact F'|]. split.
  { replace (addr + _ + _) with (addr + dist addr val) by lia. apply dist_goes. exact V. }
  split; intros c addr2 i y i0 rest2 Fc W.
  - assert (W' : exists i', with_lo i (sx 12 (dist addr val)) = Some i').
    { destruct i; try discriminate W; cbn [with_lo]; eauto. destruct o; try discriminate W; eauto. }
    destruct W' as (i' & W').
    destruct (rel_pcrel_lo_i tls (addr, val) c addr2 addr i _ rest2 i' Fc eq_refl eq_refl W') as (c' & E2 & F2).
    exists c', i'. auto.
  - assert (W' : exists i', with_st i (sx 12 (dist addr val)) = Some i').
    { destruct i; try discriminate W; cbn [with_st]; eauto. }
    destruct W' as (i' & W').
    destruct (rel_pcrel_lo_s tls (addr, val) c addr2 addr i _ rest2 i' Fc eq_refl eq_refl W') as (c' & E2 & F2).
    exists c', i'. auto.
Qed.
Print Assumptions C100_address_parts_partial.

(** Refuted: from 2 to 4 GiB away the linker accepts, and the address is
    4 GiB off. *)
Theorem C100_address_parts_refuted : exists b addr val rest b' h l c c',
  (exists x, fetch b = Some (IAuipc 5 x, 4, rest)) /\ addr64 addr /\ addr64 val /\
  relocate RPcrelHi 0 (0, 0) b addr val = Ok (b', (addr, val)) /\
  fetch b' = Some (IAuipc 5 h, 4, rest) /\
  (exists x, fetch c = Some (IOpI ADD 6 5 x, 4, [])) /\
  relocate RPcrelLoI 0 (addr, val) c (addr + 4) addr = Ok (c', (addr, val)) /\
  fetch c' = Some (IOpI ADD 6 5 l, 4, []) /\ addr + h + l = val - 2 ^ 32.
Proof.
  exists (le 4 0x297), 0x400000, 0xA0400000, []. eexists. eexists. eexists.
  exists (le 4 0x28313). eexists.
  split; [exists 0; reflexivity|]. split; [unfold addr64; lia|]. split; [unfold addr64; lia|].
  split; [vm_compute; reflexivity|]. split; [reflexivity|]. split; [exists 0; reflexivity|].
  split; [vm_compute; reflexivity|]. split; reflexivity.
Qed.
Print Assumptions C100_address_parts_refuted.

(** Addresses as numbers, for addresses in the lower or upper 2 GiB: the
    constants of the two instructions add up to the address.  What is missing:
    another address should stop the linker. *)
Theorem C100_absolute_addresses_partial : forall tls hi b addr val rd x rest,
  fetch b = Some (ILui rd x, 4, rest) -> addr64 val ->
  - 2 ^ 31 <= sx 64 val + 0x800 < 2 ^ 31 ->
  exists b' h l, relocate RHi20 tls hi b addr val = Ok (b', hi) /\
    fetch b' = Some (ILui rd h, 4, rest) /\ ux 64 (h + l) = val /\
    (forall c addr2 i y i0 rest2, fetch c = Some (i, 4, rest2) -> with_lo i y = Some i0 ->
       exists c' i', relocate RLo12I tls hi c addr2 val = Ok (c', hi) /\
         fetch c' = Some (i', 4, rest2) /\ with_lo i l = Some i') /\
    (forall c addr2 i y i0 rest2, fetch c = Some (i, 4, rest2) -> with_st i y = Some i0 ->
       exists c' i', relocate RLo12S tls hi c addr2 val = Ok (c', hi) /\
         fetch c' = Some (i', 4, rest2) /\ with_st i l = Some i').
Proof.
  intros tls hi b addr val rd x rest F V R.
  destruct (put_hi b val rd x rest V F R) as (b' & E & F').
  exists b', (sv val - sx 12 (sv val)), (sx 12 val). rewrite <- sx12_sv in *.
  split; [unfold relocate; rewrite E; reflexivity|]. split; [exact F'|]. split.
  { replace (_ + _) with (sx 64 val) by (unfold sv; lia). unfold addr64 in V. unfold ux, sx.
    change (2 ^ 64) with 18446744073709551616 in *. change (2 ^ (64 - 1)) with 9223372036854775808.
    Z.div_mod_to_equations; lia. }
  split; intros c addr2 i y i0 rest2 Fc W.
  - assert (W' : exists i', with_lo i (sx 12 val) = Some i').
    { destruct i; try discriminate W; cbn [with_lo]; eauto. destruct o; try discriminate W; eauto. }
    destruct W' as (i' & W').
    destruct (put_i val c i rest2 i' Fc) as (c' & E2 & F2); [rewrite sx12; exact W'|].
    exists c', i'. unfold relocate. rewrite E2. auto.
  - assert (W' : exists i', with_st i (sx 12 val) = Some i').
    { destruct i; try discriminate W; cbn [with_st]; eauto. }
    destruct W' as (i' & W').
    destruct (put_s val c i rest2 i' Fc) as (c' & E2 & F2); [rewrite sx12s; exact W'|].
    exists c', i'. unfold relocate. rewrite E2. auto.
Qed.
Print Assumptions C100_absolute_addresses_partial.

(** The same for the place of a thread-local variable in its block. *)
Theorem C100_thread_local_partial : forall tls hi b addr val rd x rest,
  fetch b = Some (ILui rd x, 4, rest) ->
  - 2 ^ 31 <= dist tls val + 0x800 < 2 ^ 31 ->
  exists b' h l, relocate RTprelHi tls hi b addr val = Ok (b', hi) /\
    fetch b' = Some (ILui rd h, 4, rest) /\ h + l = dist tls val /\
    (forall c addr2 i y i0 rest2, fetch c = Some (i, 4, rest2) -> with_lo i y = Some i0 ->
       exists c' i', relocate RTprelLoI tls hi c addr2 val = Ok (c', hi) /\
         fetch c' = Some (i', 4, rest2) /\ with_lo i l = Some i') /\
    (forall c addr2 i y i0 rest2, fetch c = Some (i, 4, rest2) -> with_st i y = Some i0 ->
       exists c' i', relocate RTprelLoS tls hi c addr2 val = Ok (c', hi) /\
         fetch c' = Some (i', 4, rest2) /\ with_st i l = Some i').
Proof.
  intros tls hi b addr val rd x rest F R.
  assert (V : 0 <= u64 (val - tls) < 2 ^ 64) by (apply Z.mod_pos_bound; lia).
  assert (Sd : sv (u64 (val - tls)) = dist tls val).
  { unfold sv, dist, u64. apply Rv_dec_proof.sx_cong; [lia|].
    rewrite Zminus_mod_idemp_l, Z.sub_diag. reflexivity. }
  assert (Sl : sx 12 (u64 (val - tls)) = sx 12 (dist tls val)) by (rewrite sx12_sv, Sd; reflexivity).
  destruct (put_hi b (u64 (val - tls)) rd x rest V F) as (b' & E & F'); [rewrite Sd; exact R|].
  rewrite Sd in F'.
  exists b', (dist tls val - sx 12 (dist tls val)), (sx 12 (dist tls val)).
  split; [unfold relocate; rewrite E; reflexivity|]. split; [exact F'|]. split; [lia|].
  split; intros c addr2 i y i0 rest2 Fc W.
  - assert (W' : exists i', with_lo i (sx 12 (dist tls val)) = Some i').
    { destruct i; try discriminate W; cbn [with_lo]; eauto. destruct o; try discriminate W; eauto. }
    destruct W' as (i' & W').
    destruct (put_i (u64 (val - tls)) c i rest2 i' Fc) as (c' & E2 & F2); [rewrite sx12, Sl; exact W'|].
    exists c', i'. unfold relocate. rewrite E2. auto.
  - assert (W' : exists i', with_st i (sx 12 (dist tls val)) = Some i').
    { destruct i; try discriminate W; cbn [with_st]; eauto. }
    destruct W' as (i' & W').
    destruct (put_s (u64 (val - tls)) c i rest2 i' Fc) as (c' & E2 & F2); [rewrite sx12s, Sl; exact W'|].
    exists c', i'. unfold relocate. rewrite E2. auto.
Qed.
Print Assumptions C100_thread_local_partial.

(** Refuted: the address 2 GiB is accepted and becomes one 4 GiB below it. *)
Theorem C100_absolute_addresses_refuted : exists b val rest b' h l c c',
  (exists x, fetch b = Some (ILui 5 x, 4, rest)) /\ addr64 val /\
  relocate RHi20 0 (0, 0) b 0 val = Ok (b', (0, 0)) /\ fetch b' = Some (ILui 5 h, 4, rest) /\
  (exists x, fetch c = Some (IOpI ADD 6 5 x, 4, [])) /\
  relocate RLo12I 0 (0, 0) c 4 val = Ok (c', (0, 0)) /\
  fetch c' = Some (IOpI ADD 6 5 l, 4, []) /\ h + l = val - 2 ^ 32.
Proof.
  exists (le 4 0x2b7), 0x80000000, []. eexists. eexists. eexists.
  exists (le 4 0x28313). eexists.
  split; [exists 0; reflexivity|]. split; [unfold addr64; lia|].
  split; [vm_compute; reflexivity|]. split; [reflexivity|]. split; [exists 0; reflexivity|].
  split; [vm_compute; reflexivity|]. split; reflexivity.
Qed.
Print Assumptions C100_absolute_addresses_refuted.

(** Numbers in the data.  [num_rel t]: how many bytes, and the number there
    afterwards.  The bytes after it stay. *)
Definition num_rel (t : rty) : option (nat * (Z -> Z -> Z -> Z)) :=
  match t with
  | R64 | RAdd64 => Some (8%nat, fun w addr val => w + val)
  | R32 | RAdd32 => Some (4%nat, fun w addr val => w + val)
  | RAdd16 => Some (2%nat, fun w addr val => w + val)
  | RSub64 => Some (8%nat, fun w addr val => w - val)
  | RSub32 => Some (4%nat, fun w addr val => w - val)
  | RSub16 => Some (2%nat, fun w addr val => w - val)
  | RSub8 => Some (1%nat, fun w addr val => w - val)
  | RSet8 => Some (1%nat, fun w addr val => val)
  | RPcrel32 => Some (4%nat, fun w addr val => w + val - addr)
  | _ => None
  end.
Theorem C100_numbers : forall t n f tls hi b addr val,
  num_rel t = Some (n, f) -> (n <= length b)%nat -> bytes b ->
  exists b', relocate t tls hi b addr val = Ok (b', hi) /\
    field n b' = f (field n b) addr val mod 2 ^ (8 * Z.of_nat n) /\
    skipn n b' = skipn n b /\ length b' = length b /\ bytes b'.
Proof.
  intros t n f tls hi b addr val T L B.
  assert (K : forall g, (forall w, n = 1%nat -> 0 <= w < 256 -> g w mod 256 = f w addr val mod 256) ->
    (n <> 1%nat -> forall w, g w = f w addr val) ->
    exists b', bind (upd n g b) (fun b => Ok (b, hi)) = Ok (b', hi) /\
      field n b' = f (field n b) addr val mod 2 ^ (8 * Z.of_nat n) /\
      skipn n b' = skipn n b /\ length b' = length b /\ bytes b').
  { intros g G1 G2. rewrite upd_ok by assumption. cbn [bind]. eexists. split; [reflexivity|].
    rewrite field_le, skipn_le. split; [|split; [reflexivity|split]].
    - destruct (Nat.eq_dec n 1) as [->|N]; [|rewrite G2 by assumption; reflexivity].
      change (2 ^ (8 * Z.of_nat 1)) with 256. apply G1; [reflexivity|]. apply field1_range; assumption.
    - rewrite app_length, le_length, skipn_length. lia.
    - unfold bytes in *. apply Forall_app. split.
      + clear. generalize (g (field n b)). induction n; intros z; cbn [le]; constructor; auto.
        apply Z.mod_pos_bound. lia.
      + rewrite <- (firstn_skipn n b) in B. apply Forall_app in B. tauto. }
  destruct t; try discriminate T; injection T as <- <-; unfold relocate;
    apply K; intros; try reflexivity; try lia.
  - assert (E1 : Z.land w (Z.lnot 255) = 0).
    { apply Z.bits_inj'. intros i Hi. rewrite Z.land_spec, Z.lnot_spec, Z.bits_0 by lia.
      change 255 with (Z.ones 8). rewrite Z.testbit_ones_nonneg by lia. destruct (Z.ltb_spec i 8).
      - apply andb_false_r.
      - rewrite (Rv_proof.tb_hi w 256 i); [reflexivity|lia| |lia]. change 256 with (2 ^ 8). apply Z.pow_le_mono_r; lia. }
    rewrite E1, Z.lor_0_l. change 255 with (Z.ones 8). rewrite Z.land_ones by lia.
    change (2 ^ 8) with 256. apply Z.mod_mod. lia.
Qed.
Print Assumptions C100_numbers.

(** The low six bits of a byte; the upper two stay. *)
Theorem C100_six_bit_numbers : forall t tls hi b addr val,
  t = RSet6 \/ t = RSub6 -> (1 <= length b)%nat -> bytes b ->
  exists b', relocate t tls hi b addr val = Ok (b', hi) /\
    field 1 b' mod 64 = (match t with RSet6 => val | _ => field 1 b - val end) mod 64 /\
    field 1 b' / 64 = field 1 b / 64 /\ skipn 1 b' = skipn 1 b.
Proof.
  intros t tls hi b addr val T L B. pose proof (field1_range b B L) as R.
  destruct T as [-> | ->]; unfold relocate; rewrite upd_ok by assumption; cbn [bind];
    eexists; (split; [reflexivity|]); rewrite field_le, skipn_le;
    change (2 ^ (8 * Z.of_nat 1)) with 256.
  - destruct (low6 (field 1 b) val R) as (A & C). auto.
  - destruct (low6 (field 1 b) (field 1 b - val) R) as (A & C). auto.
Qed.
Print Assumptions C100_six_bit_numbers.

(** Refuted for the 16-bit numbers: only the lower byte is written. *)
Theorem C100_sixteen_bit_numbers_refuted : exists b val b',
  bytes b /\ (2 <= length b)%nat /\ relocate RSet16 0 (0, 0) b 0 val = Ok (b', (0, 0)) /\
  field 2 b' <> val mod 2 ^ 16.
Proof.
  exists [0; 0], 0x1234. eexists. split; [unfold bytes; repeat constructor; lia|]. split; [cbn; lia|].
  split; [vm_compute; reflexivity|]. vm_compute. discriminate.
Qed.
Print Assumptions C100_sixteen_bit_numbers_refuted.

(** Numbers in seven-bit groups, where the new number takes as many bytes as the
    field has: the number is put there, or taken from the one that is there, and
    the bytes after it stay.  What is missing: a field of more bytes than the
    number needs (see below). *)
Theorem C100_grouped_numbers_partial : forall tls hi b0 b addr val old c,
  groups old b0 -> (length b0 <= 10)%nat -> shortest c -> length c = length b0 ->
  (groups val c -> relocate RSetUleb tls hi (b0 ++ b) addr val = Ok (c ++ b, hi)) /\
  (groups ((old - val) mod 2 ^ 64) c ->
     relocate RSubUleb tls hi (b0 ++ b) addr val = Ok (c ++ b, hi)).
Proof.
  intros tls hi b0 b addr val old c G L Sh Lc. unfold relocate. split; intros Gc.
  - rewrite (put_uleb_same val c b0 b Gc Sh Lc L). reflexivity.
  - rewrite (read_uleb_ok old b0 G 0 b) by lia. rewrite Z.shiftl_0_r. cbn [bind].
    assert (E : u64 (u64 old - val) = (old - val) mod 2 ^ 64).
    { unfold u64. rewrite Zminus_mod_idemp_l. reflexivity. }
    rewrite E, (put_uleb_same _ c b0 b Gc Sh Lc L). reflexivity.
Qed.
Print Assumptions C100_grouped_numbers_partial.

(** Refuted: where the number got shorter, a byte of the old one is left behind
    it, so that what follows is read from the wrong place. *)
Theorem C100_grouped_numbers_refuted : exists b0 b val b' c r,
  groups 300 b0 /\ relocate RSubUleb 0 (0, 0) (b0 ++ b) 0 val = Ok (b', (0, 0)) /\
  groups (300 - val) c /\ b' = c ++ r /\ r <> b.
Proof.
  exists [0xAC; 2], [7], 200. eexists. exists [100], [2; 7].
  split; [apply (G_more 2 44 [2]); [lia|constructor; lia]|].
  split; [vm_compute; reflexivity|]. split; [constructor; lia|]. split; [reflexivity|discriminate].
Qed.
Print Assumptions C100_grouped_numbers_refuted.

(** concrete instances *)
Example branch_case : exists b', relocate RBranch 0 (0, 0) (asm_bxx BNE 5 6 0) 0x10010 0x10000 = Ok (b', (0, 0)) /\
  fetch b' = Some (IBr BNE 5 6 (-16), 4, []).
Proof. eexists. split; [vm_compute; reflexivity|reflexivity]. Qed.
Example branch_reaches : -4096 <= dist 0x10010 0x10000 < 4096 /\ dist 0x10010 0x10000 mod 2 = 0.
Proof. vm_compute. repeat split; congruence. Qed.
Example compressed_case : exists w b', fetch w = Some (IBr BEQ 8 0 0, 2, []) /\
  relocate RRvcBranch 0 (0, 0) w 0x1000 0x1024 = Ok (b', (0, 0)) /\
  fetch b' = Some (IBr BEQ 8 0 36, 2, []).
Proof. exists (le 2 0xc001). eexists. split; [reflexivity|]. split; [vm_compute; reflexivity|reflexivity]. Qed.
Example compressed_jump_case : exists w b', fetch w = Some (IJal 0 0, 2, []) /\
  relocate RRvcJump 0 (0, 0) w 0x1000 0xc00 = Ok (b', (0, 0)) /\ fetch b' = Some (IJal 0 (-1024), 2, []).
Proof. exists (le 2 0xa001). eexists. split; [reflexivity|]. split; [vm_compute; reflexivity|reflexivity]. Qed.
Example pair_case : exists b' c', relocate RCall 0 (0, 0) (asm_call_d 0) 0x10000 0x12ffe = Ok (b', (0, 0)) /\
  fetch b' = Some (IAuipc 1 0x3000, 4, c') /\ fetch c' = Some (IJalr 1 1 (-2), 4, []).
Proof. do 2 eexists. split; [vm_compute; reflexivity|]. split; reflexivity. Qed.
Example grouped_case : groups 300 [0xAC; 2] /\ shortest [0xC8; 1] /\ groups (300 - 100) [0xC8; 1].
Proof.
  split; [apply (G_more 2 44 [2]); [lia|constructor; lia]|]. split; [right; discriminate|].
  apply (G_more 1 72 [1]); [lia|constructor; lia].
Qed.
Example six_case : bytes [0xC5; 1] /\ relocate RSub6 0 (0, 0) [0xC5; 1] 0 6 = Ok ([0xFF; 1], (0, 0)).
Proof. split; [unfold bytes; repeat constructor; lia|reflexivity]. Qed.
Example number_case : relocate RPcrel32 0 (0, 0) [4; 0; 0; 0; 9] 0x2000 0x1000 = Ok ([4; 0xF0; 0xFF; 0xFF; 9], (0, 0)).
Proof. reflexivity. Qed.
Example absolute_case : - 2 ^ 31 <= sx 64 0xFFFFFFFF80000000 + 0x800 < 2 ^ 31 /\
  exists b', relocate RHi20 0 (0, 0) (le 4 0x2b7) 0 0x12FFF = Ok (b', (0, 0)) /\
    fetch b' = Some (ILui 5 0x13000, 4, []).
Proof. split; [vm_compute; split; congruence|]. eexists. split; [vm_compute; reflexivity|reflexivity]. Qed.

(** ** C101 *)

(** Instructions that are not jumps keep their bytes, and a label takes none. *)
Theorem C101_other_instructions_are_kept : forall l chunks rels i x,
  assemble l = Ok (chunks, rels) -> one_definition l -> nth_error l i = Some x ->
  match x with
  | Label _ => nth_error chunks i = Some []
  | Plain b | Data b _ _ => nth_error chunks i = Some b
  | Jump _ _ => True
  end.
Proof. exact others_kept. Qed.
Print Assumptions C101_other_instructions_are_kept.

(** Jumps and branches to a label of the module go to the label.  What is missing
    from the full statement: the last two hypotheses (see the refutations
    below). *)
Theorem C101_jumps_reach_their_labels_partial : forall l chunks rels i j o n,
  assemble l = Ok (chunks, rels) -> one_definition l -> even_items l ->
  nth_error l i = Some (Jump o n) -> nth_error l j = Some (Label n) -> o <> Call ->
  not_taken_before l i n -> (o = Jmp -> reaches o (pos chunks j - pos chunks i)) ->
  exists c, nth_error chunks i = Some c /\ lands o c (pos chunks i) (pos chunks j).
Proof. exact jump_lands. Qed.
Print Assumptions C101_jumps_reach_their_labels_partial.

(** Calls, and jumps to names from elsewhere, get an entry for the linker.  The
    code linked by it, wherever the text and the name are put within reach of
    each other, goes to the name; a call leaves the return address in
    register 1 and changes nothing else. *)
Theorem C101_calls_and_jumps_elsewhere_partial : forall l chunks rels i o n,
  assemble l = Ok (chunks, rels) -> one_definition l -> even_items l ->
  nth_error l i = Some (Jump o n) -> (o = Call \/ (~ defined l n /\ not_taken_before l i n)) ->
  exists c r, nth_error chunks i = Some c /\ In r rels /\ r_sym r = n /\ r_off r = pos chunks i /\
    (forall base sym tls hi, addr64 (base + pos chunks i) -> addr64 sym ->
       base mod 2 = 0 -> sym mod 2 = 0 ->
       reaches o (dist (base + pos chunks i) sym) ->
       exists c', relocate (r_ty r) tls hi c (base + r_off r) sym = Ok (c', hi) /\
         linked o c' (base + pos chunks i) sym).
Proof. exact external_jump. Qed.
Print Assumptions C101_calls_and_jumps_elsewhere_partial.

(** The entries for the linker are exactly those of the data references, of the
    calls and of the jumps to names from elsewhere, once each. *)
Theorem C101_entries_for_the_linker_partial : forall l chunks rels,
  assemble l = Ok (chunks, rels) -> one_definition l ->
  (forall i o n, nth_error l i = Some (Jump o n) -> o <> Call -> not_taken_before l i n) ->
  rels = data_refs 0 l chunks ++ jump_refs l 0 l chunks.
Proof. exact linker_entries. Qed.
Print Assumptions C101_entries_for_the_linker_partial.

(** a function that loops, calls the next one and one from elsewhere *)
Definition prog : list item :=
  [ Label 0; Plain [1; 0; 0; 0]; Label 1; Plain [1; 0]; Jump (Br BNE 5 6) 1;
    Jump Call 3; Data [0x17; 5; 0; 0; 0x13; 5; 5; 0] RCall 4; Jump Call 5;
    Jump Jmp 2; Plain (repeat 1 200); Label 2; Plain [0x82; 0x80];
    Label 3; Jump (Br BLT 10 0) 1; Jump Jmp 6 ].
Example prog_ok : one_definition prog /\ even_items prog /\ ~ defined prog 6 /\ not_taken_before prog 14 6.
Proof.
  split; [|split; [|split]].
  - apply one_definition_nodup. cbn. repeat (constructor; cbn; [intuition discriminate|]). constructor.
  - intros x H. cbn [In prog] in H.
    repeat (destruct H as [<-|H]; [try exact Logic.I; try reflexivity; cbn; unfold reg; lia|]). destruct H.
  - rewrite <- is_defined_iff. vm_compute. discriminate.
  - right. intros j b t L. do 15 (destruct j as [|j]; [discriminate|]). lia.
Qed.
Example prog_taken : not_taken_before prog 4 1 /\ not_taken_before prog 8 2.
Proof.
  split.
  - left. exists 2%nat. split; [lia|reflexivity].
  - right. intros j b t L. do 6 (destruct j as [|j]; [discriminate|]). destruct j as [|j]; [discriminate|].
    destruct j as [|j]; [discriminate|]. lia.
Qed.
Example prog_out : exists chunks rels, assemble prog = Ok (chunks, rels) /\
  pos chunks 4 = 6 /\ pos chunks 2 = 4 /\ pos chunks 12 = 240 /\ pos chunks 13 = 240 /\
  nth_error chunks 4 = Some (asm_bxx BNE 5 6 (-2)) /\
  nth_error chunks 13 = Some (asm_bxx BLT 10 0 (-236)) /\
  rels = [Rela 18 RCall 4; Rela 10 RCall 3; Rela 26 RCall 5; Rela 244 RJal 6].
Proof. do 2 eexists. split; [vm_compute; reflexivity|]. vm_compute. repeat split. Qed.

(** Refuted: a branch to a name whose address was used earlier in the text, and
    that is defined later, goes to the start of the text. *)
Theorem C101_jumps_reach_their_labels_refuted :
  exists l chunks rels i j o n c,
    assemble l = Ok (chunks, rels) /\ one_definition l /\ even_items l /\
    nth_error l i = Some (Jump o n) /\ nth_error l j = Some (Label n) /\ o <> Call /\
    reaches o (pos chunks j - pos chunks i) /\
    nth_error chunks i = Some c /\ lands o c (pos chunks i) 0 /\ pos chunks j <> 0.
Proof.
  exists [Label 0; Data [0x17; 5; 0; 0; 0x13; 5; 5; 0] RCall 1; Jump Jmp 1; Plain [1; 0]; Label 1; Plain [0x82; 0x80]].
  do 2 eexists. exists 2%nat, 4%nat, Jmp, 1%nat. eexists.
  split; [vm_compute; reflexivity|]. split.
  { apply one_definition_nodup. cbn. repeat (constructor; cbn; [intuition discriminate|]). constructor. }
  split.
  { intros x H. cbn [In] in H.
    repeat (destruct H as [<-|H]; [try exact Logic.I; try reflexivity|]). destruct H. }
  split; [reflexivity|]. split; [reflexivity|]. split; [discriminate|].
  split; [vm_compute; split; congruence|]. split; [reflexivity|]. split; [reflexivity|].
  vm_compute. discriminate.
Qed.
Print Assumptions C101_jumps_reach_their_labels_refuted.

(** Refuted: a jump over 1 MiB goes as far in the other direction. *)
Theorem C101_far_jumps_refuted :
  exists l chunks rels i j n c,
    assemble l = Ok (chunks, rels) /\ one_definition l /\ even_items l /\
    nth_error l i = Some (Jump Jmp n) /\ nth_error l j = Some (Label n) /\ not_taken_before l i n /\
    nth_error chunks i = Some c /\ lands Jmp c (pos chunks i) (pos chunks j - 2 ^ 21).
Proof.
  set (b := repeat 0 (Z.to_nat (2 ^ 20 - 4))).
  assert (Lb : Z.of_nat (length b) = 2 ^ 20 - 4) by (unfold b; rewrite repeat_length; lia).
  clearbody b.
  exists [Jump Jmp 0; Plain b; Label 0], [w_jal 0 (2 ^ 20); b; []], [], 0%nat, 2%nat, 0%nat, (w_jal 0 (2 ^ 20)).
  split.
  { unfold assemble. cbn [pass1 pass1_step lookup bind off syms temps rels app jump_bytes is_branch].
    rewrite Lb. cbn [pass2 pass2_step t_rel t_jump lookup Nat.eqb is_branch andb t_off].
    change (0 + Z.of_nat (length (w_jal 0 0)) + (2 ^ 20 - 4)) with (2 ^ 20).
    cbn [bind pass2 map]. reflexivity. }
  split.
  { apply one_definition_nodup. cbn. repeat (constructor; cbn; [intuition discriminate|]). constructor. }
  split.
  { intros x [<-|[<-|[<-|[]]]]; try exact Logic.I. rewrite Lb. reflexivity. }
  split; [reflexivity|]. split; [reflexivity|]. split.
  { right. intros j b' t L. lia. }
  split; [reflexivity|]. unfold pos. cbn [firstn concat]. rewrite !app_length. cbn [length].
  rewrite Nat.add_0_r, Nat2Z.inj_add, Lb. reflexivity.
Qed.
Print Assumptions C101_far_jumps_refuted.
