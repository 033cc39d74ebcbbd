(** C102, C103, C104: machine code for amd64. *)
From Coq Require Import ZArith List Bool Lia String.
From Verif Require Import Base Amd_model Amd_spec Amd_check Amd_proof Amd_dec_proof Amd_enc_proof
  Amd_main_proof Amd_top_proof.
Import ListNotations.
Local Open Scope string_scope.
Open Scope Z_scope.

(** ** C102 *)

(** Reading the bytes the encoder writes for an instruction gives back that
    instruction, its registers, addresses and numbers, and stops exactly where the
    bytes end, whatever follows.  Missing from the full claim: the cases that
    [supported] leaves out, each refuted below. *)
Theorem C102_amd64_encode_partial : forall name ops bytes rest,
  supported name ops -> encode name ops = Ok bytes ->
  decode (bytes ++ rest) = Some (want name ops, rest).
Proof. intros name ops bytes rest Hs H. exact (encode_decode name ops bytes Hs H rest). Qed.
Print Assumptions C102_amd64_encode_partial.

(** On these instructions the encoder either writes bytes or stops with an
    assertion because the table has no entry: it never touches memory it should
    not. *)
Theorem C102_amd64_encode_safe : forall name ops, supported name ops ->
  (exists bytes, encode name ops = Ok bytes) \/ encode name ops = Abort.
Proof.
  intros name ops Hs. destruct (encode_total name ops Hs) as [H|[H _]]; [left|right]; exact H.
Qed.
Print Assumptions C102_amd64_encode_safe.

(** The instructions the compiler relies on do have encodings: arithmetic, moves,
    comparisons, shifts, conversions and jumps in all their widths and forms. *)
Theorem C102_amd64_usual_encode : forall name ops,
  In (name, map shape_of ops) usual -> Forall plain ops -> bytes_if_high ops ->
  supported name ops -> exists bytes, encode name ops = Ok bytes.
Proof. exact usual_encodes. Qed.
Print Assumptions C102_amd64_usual_encode.

(** Two instructions that decode alike are asked for alike: one sequence of bytes
    never stands for two different instructions. *)
Theorem C102_amd64_encode_injective : forall n1 o1 n2 o2 bytes,
  supported n1 o1 -> supported n2 o2 ->
  encode n1 o1 = Ok bytes -> encode n2 o2 = Ok bytes -> want n1 o1 = want n2 o2.
Proof.
  intros n1 o1 n2 o2 bytes S1 S2 E1 E2.
  pose proof (encode_decode _ _ _ S1 E1 []) as D1. pose proof (encode_decode _ _ _ S2 E2 []) as D2.
  rewrite D1 in D2. injection D2 as D2 D3. apply injective_projections; assumption.
Qed.
Print Assumptions C102_amd64_encode_injective.

Local Ltac okl :=
  repeat apply Forall_cons; try apply Forall_nil;
  unfold address_ok, operand_ok, reg_ok, base_ok, is_int32; cbn [r_class r_index In]; intuition lia.
Local Ltac nosh := intros [K|[K|K]]; discriminate.

(** [mov rax, [r9 + rcx*8 + 300]], then [add r10d, -5], then [ret] *)
Definition ex1 : list operand := [OReg (Rg G64 0); OSib (Some (Rg G64 9)) (Some (Rg G64 1)) 8 300 8].
Definition ex2 : list operand := [OReg (Rg G32 10); OUint32 4294967291].
Example C102_supported : supported "mov" ex1 /\ supported "add" ex2.
Proof.
  split.
  - split; [|split; [|split; [|split]]].
    + okl.
    + intros [K|[K|K]]; discriminate.
    + okl.
    + intros r [H|[H|[]]] Hc; [injection H as <-; discriminate|discriminate].
    + split; intros K; discriminate.
  - split; [|split; [|split; [|split]]].
    + okl.
    + intros [K|[K|K]]; discriminate.
    + okl.
    + intros r [H|[H|[]]] Hc; [injection H as <-; discriminate|discriminate].
    + split; intros K; discriminate.
Qed.
Example C102_usual : In ("mov", map shape_of ex1) usual /\ Forall plain ex1 /\ bytes_if_high ex1.
Proof.
  split; [|split].
  - apply in_or_app. left. vm_compute. tauto.
  - repeat constructor.
  - intros r [H|[H|[]]] Hc; [injection H as <-; discriminate|discriminate].
Qed.
Example C102_bytes :
  encode "mov" ex1 = Ok [73; 139; 132; 201; 44; 1; 0; 0]
  /\ encode "add" ex2 = Ok [65; 129; 194; 251; 255; 255; 255]
  /\ want "mov" ex1 = ("mov", [XGpr 8 0; XMem None 8 (Abs (Some 9) (Some (1, 8)) 300)])
  /\ want "add" ex2 = ("add", [XGpr 4 10; XImm 4294967291]).
Proof. repeat split; vm_compute; reflexivity. Qed.

(** *** What goes wrong *)

Local Notation rax := (Rg G64 0).

(** [mov rax, [rsp]] given as a plain indirect operand: the byte that follows is
    swallowed *)
Theorem C102_amd64_rsp_refuted : exists name ops bytes rest,
  Forall operand_ok ops /\ encode name ops = Ok bytes
  /\ decode (bytes ++ rest) = Some (("mov", [XGpr 8 0; XMem None 8 (Abs (Some 3) (Some (0, 8)) 0)]), [])
  /\ want name ops = ("mov", [XGpr 8 0; XMem None 8 (Abs (Some 4) None 0)])
  /\ rest = [195].
Proof.
  exists "mov", [OReg rax; OInd (Rg G64 4) 8], [72; 139; 4], [195].
  split; [okl|]. repeat split; vm_compute; reflexivity.
Qed.
Print Assumptions C102_amd64_rsp_refuted.

(** [mov rax, [r13 + rcx*8 + 16]]: the displacement is lost *)
Theorem C102_amd64_r13_refuted : exists name ops bytes,
  Forall operand_ok ops /\ encode name ops = Ok bytes
  /\ decode bytes = Some (("mov", [XGpr 8 0; XMem None 8 (Abs (Some 13) (Some (1, 8)) 0)]), [])
  /\ want name ops = ("mov", [XGpr 8 0; XMem None 8 (Abs (Some 13) (Some (1, 8)) 16)]).
Proof.
  exists "mov", [OReg rax; OSib (Some (Rg G64 13)) (Some (Rg G64 1)) 8 16 8], [73; 139; 68; 205; 0].
  split; [okl|].
  repeat split; vm_compute; reflexivity.
Qed.
Print Assumptions C102_amd64_r13_refuted.

(** [add [rax], cl]: the opcode byte 0 is not written; with a [ret] behind it the
    processor reads [or bl, al] *)
Theorem C102_amd64_add_byte_refuted : exists name ops bytes,
  Forall operand_ok ops /\ Forall address_ok ops /\ encode name ops = Ok bytes
  /\ bytes = [64; 8] /\ decode (bytes ++ [195]) = Some (("or", [XGpr 1 3; XGpr 1 0]), [])
  /\ want name ops = ("add", [XMem None 1 (Abs (Some 0) None 0); XGpr 1 1]).
Proof.
  exists "add", [OInd rax 1; OReg (Rg G8 1)], [64; 8].
  split; [okl|]. split; [okl|]. repeat split; vm_compute; reflexivity.
Qed.
Print Assumptions C102_amd64_add_byte_refuted.

(** [xorpd xmm9, xmm9]: the REX byte stands before the operand-size byte, so the
    processor ignores it and clears xmm1 *)
Theorem C102_amd64_xor_high_xmm_refuted : exists name ops bytes,
  Forall operand_ok ops /\ encode name ops = Ok bytes
  /\ decode bytes = Some (("xorpd", [XXmm 1; XXmm 1]), [])
  /\ want name ops = ("xorpd", [XXmm 9; XXmm 9]).
Proof.
  exists "xor", [OReg (Rg X64 9); OReg (Rg X64 9)], [69; 102; 15; 87; 201].
  split; [okl|]. repeat split; vm_compute; reflexivity.
Qed.
Print Assumptions C102_amd64_xor_high_xmm_refuted.

(** [mov r9b, ah], the last step of an 8-bit remainder: with a REX byte the
    register number of ah means spl *)
Theorem C102_amd64_high_byte_refuted : exists name ops bytes,
  Forall operand_ok ops /\ encode name ops = Ok bytes
  /\ decode bytes = Some (("mov", [XGpr 1 9; XGpr 1 4]), [])
  /\ want name ops = ("mov", [XGpr 1 9; XHigh 0]).
Proof.
  exists "mov", [OReg (Rg G8 9); OReg (Rg G8H 4)], [68; 138; 204].
  split; [okl|]. repeat split; vm_compute; reflexivity.
Qed.
Print Assumptions C102_amd64_high_byte_refuted.

(** [xor] of a float register with memory reads 16 bytes, not the 8 asked for *)
Theorem C102_amd64_xor_memory_refuted : exists name ops bytes,
  Forall operand_ok ops /\ Forall address_ok ops /\ encode name ops = Ok bytes
  /\ decode bytes = Some (("xorpd", [XXmm 1; XMem None 16 (Abs (Some 0) None 0)]), [])
  /\ want name ops = ("xorpd", [XXmm 1; XMem None 8 (Abs (Some 0) None 0)]).
Proof.
  exists "xor", [OReg (Rg X64 1); OInd rax 8], [102; 15; 87; 8].
  split; [okl|]. split; [okl|]. repeat split; vm_compute; reflexivity.
Qed.
Print Assumptions C102_amd64_xor_memory_refuted.

(** ** C103 *)

(** An address of the compiler's code (base, index times scale, offset, or a place
    in a stack slot) becomes an operand for the same address, in every state of
    the registers. *)
Theorem C103_amd64_address : forall a size o R,
  laddr_ok a -> trans_addr a size = Ok o ->
  operand_ok o /\ operand_addr R o = Some (laddr_value R a).
Proof.
  intros a size o R Ha E. destruct (trans_addr_ok a size o Ha E) as (H1 & H2 & _).
  split; [exact H1|apply H2].
Qed.
Print Assumptions C103_amd64_address.

(** The encoder writes that operand correctly unless the base is rbp or r13 and
    there are both an index and an offset. *)
Theorem C103_amd64_address_encodable_partial : forall a size o,
  laddr_ok a -> trans_addr a size = Ok o ->
  (forall r, la_base a = LReg r -> r_index r = 5 \/ r_index r = 13 ->
     la_index a <> None -> la_offset a = 0) ->
  address_ok o.
Proof. intros a size o Ha E. exact (proj2 (proj2 (trans_addr_ok a size o Ha E))). Qed.
Print Assumptions C103_amd64_address_encodable_partial.

(** With r13 as a base, an index and an offset, the load reads another address. *)
Theorem C103_amd64_address_r13_refuted : exists a size o bytes x,
  laddr_ok a /\ trans_addr a size = Ok o /\ encode "mov" [OReg rax; o] = Ok bytes
  /\ decode bytes = Some (("mov", [XGpr 8 0; XMem None 8 x]), [])
  /\ forall R, addr_value R x = Some (laddr_value R a - 16).
Proof.
  exists (LA (LReg (Rg G64 13)) (Some (Rg G64 1)) 8 16), 8,
    (OSib (Some (Rg G64 13)) (Some (Rg G64 1)) 8 16 8), [73; 139; 68; 205; 0],
    (Abs (Some 13) (Some (1, 8)) 0).
  split.
  { unfold laddr_ok, base_ok, is_int32. cbn [la_base la_index la_scale la_offset r_class r_index In].
    intuition lia. }
  split; [reflexivity|]. split; [vm_compute; reflexivity|]. split; [vm_compute; reflexivity|].
  intros R. unfold laddr_value. cbn [addr_value la_base la_index la_scale la_offset r_index].
  f_equal. lia.
Qed.
Print Assumptions C103_amd64_address_r13_refuted.

(** Offsets are kept in 32 bits: one of 4 GiB and 8 becomes 8. *)
Theorem C103_amd64_address_far_refuted : exists a size o,
  base_ok rax /\ la_base a = LReg rax /\ la_index a = None /\ trans_addr a size = Ok o
  /\ forall R, operand_addr R o = Some (laddr_value R a - 4294967296).
Proof.
  exists (LA (LReg rax) None 0 4294967304), 8, (ODisp rax 8 8).
  split; [split; [reflexivity|cbn; lia]|].
  split; [reflexivity|]. split; [reflexivity|]. split; [vm_compute; reflexivity|].
  intros R. unfold laddr_value, operand_addr.
  cbn [want_addr addr_value la_base la_index la_scale la_offset r_index].
  f_equal. lia.
Qed.
Print Assumptions C103_amd64_address_far_refuted.

(** A value that was spilled is at the same place whether the frame is reached
    from rsp or from rbp: when rbp is [frame] bytes above rsp, the slot is at
    rbp + slot. *)
Theorem C103_amd64_stack_slot : forall frame slot size R,
  is_int32 (frame + slot) -> R 4 + frame = R 5 ->
  operand_ok (trans_stack frame slot size) /\ address_ok (trans_stack frame slot size)
  /\ operand_addr R (trans_stack frame slot size) = Some (R 5 + slot).
Proof. exact trans_stack_ok. Qed.
Print Assumptions C103_amd64_stack_slot.

(** A number of any kind becomes an operand in which the processor sees that
    number. *)
Theorem C103_amd64_number : forall k v, 0 <= v < 2 ^ 64 ->
  operand_ok (trans_imm k v)
  /\ num_value (kind_width k) (trans_imm k v) = Some (v mod 2 ^ (8 * kind_width k)).
Proof. exact trans_imm_ok. Qed.
Print Assumptions C103_amd64_number.

(** A number that fits 32 bits with its sign becomes an operand of 32 bits, which
    every instruction on integers accepts. *)
Theorem C103_amd64_small_number : forall v, 0 <= v < 2 ^ 64 ->
  (v < 2147483648 \/ 2 ^ 64 - 2147483648 <= v) -> shape_of (trans_imm I64 v) = SNum 4.
Proof. exact trans_imm_small. Qed.
Print Assumptions C103_amd64_small_number.

(** So the instruction that loads a number into a register loads that number. *)
Theorem C103_amd64_load_number : forall k v c n bytes rest,
  0 <= v < 2 ^ 64 -> 0 <= n <= 15 ->
  c = match k with I64 => G64 | I32 => G32 | I16 => G16 | I8 | IBool => G8 end ->
  encode "mov" [OReg (Rg c n); trans_imm k v] = Ok bytes ->
  decode (bytes ++ rest) =
    Some (("mov", [XGpr (kind_width k) n; XImm (v mod 2 ^ (8 * kind_width k))]), rest).
Proof. exact mov_number. Qed.
Print Assumptions C103_amd64_load_number.

Example C103_cases :
  laddr_ok (LA (LReg (Rg G64 12)) None 0 24)
  /\ trans_addr (LA (LReg (Rg G64 12)) None 0 24) 8 = Ok (OSib (Some (Rg G64 12)) None 0 24 8)
  /\ laddr_ok (LA (LStack (-48) 16) None 0 8)
  /\ trans_addr (LA (LStack (-48) 16) None 0 8) 8 = Ok (ODisp (Rg G64 5) (-40) 16)
  /\ laddr_ok (LA (LReg (Rg G64 3)) (Some (Rg G64 9)) 4 (-8))
  /\ laddr_ok (LA LNone (Some (Rg G64 9)) 4 100)
  /\ trans_stack 64 (-24) 8 = OSib (Some (Rg G64 4)) None 0 40 8
  /\ trans_imm I64 (2 ^ 64 - 7) = OUint32 4294967289
  /\ trans_imm I64 3000000000 = OUint64 3000000000
  /\ encode "mov" [OReg (Rg G64 11); trans_imm I64 (2 ^ 64 - 7)] = Ok [73; 199; 195; 249; 255; 255; 255]
  /\ encode "mov" [OReg (Rg G64 11); trans_imm I64 3000000000]
     = Ok [73; 187; 0; 94; 208; 178; 0; 0; 0; 0].
Proof.
  unfold laddr_ok, base_ok, is_int32. cbn [la_base la_index la_scale la_offset r_class r_index In].
  repeat split; try lia; try (vm_compute; reflexivity); tauto.
Qed.

(** ** C104 *)

(** A reference to a symbol is patched at a place computed from the length of the
    instruction.  At that place stand the four bytes of the displacement: with
    another displacement the instruction is the same except for those four
    bytes. *)
Theorem C104_amd64_patch_place_partial : forall name pre post d s bytes,
  supported name (pre ++ ORip d s :: post) ->
  (forall v, ~ In (OUint v) post) ->
  encode name (pre ++ ORip d s :: post) = Ok bytes ->
  exists A B,
    bytes = (A ++ le_bytes 4 d ++ B)%list
    /\ zlen A = rip_offset (zlen bytes) (pre ++ ORip d s :: post)
    /\ forall d', is_int32 d' ->
       encode name (pre ++ ORip d' s :: post) = Ok (A ++ le_bytes 4 d' ++ B)%list.
Proof. exact rip_slot. Qed.
Print Assumptions C104_amd64_patch_place_partial.

(** Together with C102: once the four bytes hold [d'], the instruction refers to
    the address [d'] after its end. *)
Theorem C104_amd64_patched_meaning : forall name pre post d s bytes d' rest,
  supported name (pre ++ ORip d s :: post) ->
  (forall v, ~ In (OUint v) post) ->
  encode name (pre ++ ORip d s :: post) = Ok bytes -> is_int32 d' ->
  supported name (pre ++ ORip d' s :: post) ->
  exists A B,
    bytes = (A ++ le_bytes 4 d ++ B)%list
    /\ zlen A = rip_offset (zlen bytes) (pre ++ ORip d s :: post)
    /\ decode ((A ++ le_bytes 4 d' ++ B) ++ rest)%list
       = Some (want name (pre ++ ORip d' s :: post), rest).
Proof.
  intros name pre post d s bytes d' rest Hs Hn E Hd Hs'.
  destruct (rip_slot name pre post d s bytes Hs Hn E) as (A & B & H1 & H2 & H3).
  exists A, B. split; [exact H1|]. split; [exact H2|].
  exact (encode_decode _ _ _ Hs' (H3 d' Hd) rest).
Qed.
Print Assumptions C104_amd64_patched_meaning.

(** The untyped number operand says it has eight bytes but is written with four:
    the place computed for an instruction that ends with it is four bytes too
    early, here even before the instruction. *)
Theorem C104_amd64_patch_place_refuted : exists name pre post d s bytes,
  supported name (pre ++ ORip d s :: post)
  /\ encode name (pre ++ ORip d s :: post) = Ok bytes
  /\ rip_offset (zlen bytes) (pre ++ ORip d s :: post) = -1.
Proof.
  exists "mov", [], [OUint 7], 0, 8, [72; 199; 5; 0; 0; 0; 0; 7; 0; 0; 0].
  split; [|split; vm_compute; reflexivity].
  split; [|split; [|split; [|split]]].
  - okl.
  - nosh.
  - okl.
  - intros r [H|[H|[]]] Hc; discriminate.
  - split; intros K; discriminate.
Qed.
Print Assumptions C104_amd64_patch_place_refuted.

Example C104_case :
  supported "mov" [ORip 0 8; OUint32 7]
  /\ encode "mov" [ORip 0 8; OUint32 7] = Ok [72; 199; 5; 0; 0; 0; 0; 7; 0; 0; 0]
  /\ rip_offset 11 [ORip 0 8; OUint32 7] = 3.
Proof.
  split; [|split; vm_compute; reflexivity].
  split; [|split; [|split; [|split]]].
  - okl.
  - nosh.
  - okl.
  - intros r [H|[H|[]]] Hc; discriminate.
  - split; intros K; discriminate.
Qed.
