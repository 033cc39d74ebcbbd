(** Machine code for arm64: the instruction encoder.

    Code modelled: src/binary/encoding/arm64/asm.h (instruction words, lines
    514-636) and src/binary/encoding/arm64/opcode.c (the table of operand
    kinds, lines 730-1021; one function per group of instructions, lines 8-728;
    the dispatch, lines 1023-1134), and fmov_imm8.h.

    Simplifications, everywhere in this file:
    - a register is its number, its size in bytes and whether its name is
      "sp" (register/arch/arm64.c 131-134: sp, xzr and wzr all have number 31);
    - the operand kind [reg, reg] (ARM64_ASM_OPERAND_REG_OFFSET) is left out:
      nothing builds one (the macro ARM64_REG_OFFSET, asm.h 462-470, does not
      compile);
    - C's integer expressions are computed in Z and cut to 32 bits when the
      function returns its [uint32_t] (shifts of negative numbers are taken as
      two's complement, which is what the compilers used do);
    - a symbol operand is its [offset] field, the only one the encoder reads. *)
From Coq Require Import ZArith List Bool Lia.
From Verif Require Import Base.
Import ListNotations.
Open Scope Z_scope.

(** ** Mnemonics (asm.h 11-86 [arm64_asm_raw_opcode_t]; asm.h 170-266
    [arm64_asm_opcode_t]).  R_NOOP and R_LABEL have no code.  The sixteen
    conditional branches are one constructor with the number of the condition,
    which is [BEQ + number]. *)
Inductive raw :=
  R_NOOP | R_LABEL | R_MOV | R_MOVK | R_ADD | R_SUB | R_MUL | R_SDIV | R_UDIV
| R_MADD | R_MSUB | R_AND | R_ORR | R_EOR | R_EON | R_CMP | R_CMN
| R_LSL | R_LSR | R_ASR | R_SXTB | R_SXTH | R_SXTW | R_UXTB | R_UXTH | R_UXTW
| R_LDRB | R_LDRH | R_LDR | R_LDRSB | R_LDRSH | R_LDRSW | R_STRB | R_STRH | R_STR
| R_LDP | R_STP | R_ADRP | R_CSET | R_B | R_BR | R_BCC (cond : Z)
| R_BL | R_BLR | R_RET | R_MRS | R_SVC | R_CBZ | R_CBNZ
| R_FMOV | R_FADD | R_FSUB | R_FMUL | R_FDIV | R_FCMP | R_FNEG | R_FSQRT
| R_SCVTF | R_UCVTF | R_FCVT | R_FCVTZS | R_FCVTZU | R_MVN
| R_FMADD | R_FMSUB | R_FNMSUB | R_NOP.

Inductive opc :=
  MOV | MOVK | ADD_R | ADD_I | SUB_R | SUB_I | MUL | SDIV | UDIV | MADD | MSUB
| AND | ORR | EOR | EON | CMP_R | CMP_I | CMN_R | CMN_I
| LSL_R | LSL_I | LSR_R | LSR_I | ASR_R | ASR_I
| SXTB | SXTH | SXTW | UXTB | UXTH | UXTW
| LDRB | LDRH | LDR | LDRSB | LDRSH | STRB | STRH | STR | LDP | STP
| ADRP | CSET | B | BR | BCC (cond : Z) | BL | BLR | RET | SVC | CBZ | CBNZ
| F_LDR | F_STR | F_LDP | F_STP | FMOV | FMOV_I | FADD | FSUB | FMUL | FDIV
| FCMP | FNEG | FSQRT | SCVTF | UCVTF | FCVT | FCVTZS | FCVTZU | MVN | MRS
| FMADD | FMSUB | FNMSUB | NOP.

(** ** Operands (types.h 78-86 [reg_t]; asm.h 268-366 [arm64_asm_operand_t]) *)
Record reg := Reg { r_sp : bool; r_idx : Z; r_size : Z }.

Inductive operand :=
| OReg (r : reg)                                  (* ..._REG *)
| OFreg (r : reg)                                 (* ..._FREG *)
| OImm (v : Z)                                    (* ..._IMMEDIATE *)
| OSym (off : Z)                                  (* ..._SYMBOL *)
| OInd (r : reg) (off : Z) (prepost : Z) (sym : bool) (* ..._INDIRECT *)
| OCond (c : Z)                                   (* ..._COND *)
| OShift (v : Z)                                  (* ..._SHIFT *)
| OExt (option imm : Z).                          (* ..._EXTEND *)

(** asm.h 371-383: the flags of the table *)
Definition R32 := 1.    Definition R64 := 2.
Definition F32 := 4.    Definition F64 := 8.
Definition RSP := 16.   Definition IMM := 64.
Definition IND := 128.  Definition ROI := 256.
Definition SYM := 512.  Definition CND := 1024.
Definition SFT := 2048. Definition EXT := 4096.
Definition DWORD := 4.  Definition QWORD := 8.

(** asm.h 385-387 *)
Definition ZERO := 31.
Definition LR := 30.

Local Notation "a '||' b" := (Z.lor a b) (at level 50, left associativity) : Z_scope.

(** ** Instruction words: the macros of asm.h 516-635, as written there *)
Section Words.
Local Notation "a << n" := (Z.shiftl a n) (at level 45, no associativity).
Local Notation low n v := (Z.land v (Z.ones n)).

(* asm.h 516-518 *)
Definition W_MOVK (sz rd imm sft : Z) := 0x72800000 || (sz << 31) || (sft << 21) || (low 16 imm << 5) || rd.
Definition W_MOVZ (sz rd imm sft : Z) := 0x52800000 || (sz << 31) || (sft << 21) || (low 16 imm << 5) || rd.
Definition W_MOVN (sz rd imm sft : Z) := 0x12800000 || (sz << 31) || (sft << 21) || (low 16 imm << 5) || rd.
(* asm.h 520-529 *)
Definition W_ADD_I (sz rd rn imm : Z) := 0x11000000 || (sz << 31) || (low 12 imm << 10) || (rn << 5) || rd.
Definition W_ADD_S (sz rd rn rm sft imm : Z) := 0x0b000000 || (sz << 31) || (sft << 22) || (rm << 16) || (low 6 imm << 10) || (rn << 5) || rd.
Definition W_ADD_E (sz rd rn rm option ov : Z) := 0x0b200000 || (sz << 31) || (rm << 16) || (option << 13) || (ov << 10) || (rn << 5) || rd.
Definition W_ADDS_I (sz rd rn imm : Z) := 0x31000000 || (sz << 31) || (low 12 imm << 10) || (rn << 5) || rd.
Definition W_ADDS_S (sz rd rn rm imm : Z) := 0x2b000000 || (sz << 31) || (rm << 16) || (low 6 imm << 10) || (rn << 5) || rd.
Definition W_SUB_I (sz rd rn imm : Z) := 0x51000000 || (sz << 31) || (low 12 imm << 10) || (rn << 5) || rd.
Definition W_SUB_S (sz rd rn rm sft imm : Z) := 0x4b000000 || (sz << 31) || (sft << 22) || (rm << 16) || (low 6 imm << 10) || (rn << 5) || rd.
Definition W_SUBS_I (sz rd rn imm : Z) := 0x71000000 || (sz << 31) || (low 12 imm << 10) || (rn << 5) || rd.
Definition W_SUBS_S (sz rd rn rm imm : Z) := 0x6b000000 || (sz << 31) || (rm << 16) || (low 6 imm << 10) || (rn << 5) || rd.
Definition W_SUB_E (sz rd rn rm option ov : Z) := 0x4b200000 || (sz << 31) || (rm << 16) || (option << 13) || (ov << 10) || (rn << 5) || rd.
(* asm.h 530-537 *)
Definition W_MADD (sz rd rn rm ra : Z) := 0x1b000000 || (sz << 31) || (rm << 16) || (ra << 10) || (rn << 5) || rd.
Definition W_MSUB (sz rd rn rm ra : Z) := 0x1b008000 || (sz << 31) || (rm << 16) || (ra << 10) || (rn << 5) || rd.
Definition W_SDIV (sz rd rn rm : Z) := 0x1ac00c00 || (sz << 31) || (rm << 16) || (rn << 5) || rd.
Definition W_UDIV (sz rd rn rm : Z) := 0x1ac00800 || (sz << 31) || (rm << 16) || (rn << 5) || rd.
Definition W_AND_S (sz rd rn rm imm : Z) := 0x0a000000 || (sz << 31) || (rm << 16) || (low 6 imm << 10) || (rn << 5) || rd.
Definition W_ORR_S (sz rd rn rm imm : Z) := 0x2a000000 || (sz << 31) || (rm << 16) || (low 6 imm << 10) || (rn << 5) || rd.
Definition W_EOR_S (sz rd rn rm imm : Z) := 0x4a000000 || (sz << 31) || (rm << 16) || (low 6 imm << 10) || (rn << 5) || rd.
Definition W_EON_S (sz rd rn rm imm : Z) := 0x4a200000 || (sz << 31) || (rm << 16) || (low 6 imm << 10) || (rn << 5) || rd.
(* asm.h 539-541 *)
Definition W_LSLV (sz rd rn rm : Z) := 0x1ac02000 || (sz << 31) || (rm << 16) || (rn << 5) || rd.
Definition W_LSRV (sz rd rn rm : Z) := 0x1ac02400 || (sz << 31) || (rm << 16) || (rn << 5) || rd.
Definition W_ASRV (sz rd rn rm : Z) := 0x1ac02800 || (sz << 31) || (rm << 16) || (rn << 5) || rd.
(* asm.h 543-544 *)
Definition W_SBFM (sz rd sn rn immr imms : Z) := 0x13000000 || (sz << 31) || (sn << 22) || (immr << 16) || (imms << 10) || (rn << 5) || rd.
Definition W_UBFM (sz rd sn rn immr imms : Z) := 0x53000000 || (sz << 31) || (sn << 22) || (immr << 16) || (imms << 10) || (rn << 5) || rd.
(* asm.h 546-553 *)
Definition W_LDUR (b s rt ofs base : Z) := 0x38400000 || (b << 30) || (s << 23) || (low 9 ofs << 12) || (base << 5) || rt.
Definition W_LDR_UIMM (b s rt ofs base : Z) := 0x39400000 || (b << 30) || (s << 23) || (low 12 ofs << 10) || (base << 5) || rt.
Definition W_LDR (b s rt ofs base prepost : Z) := 0x38400000 || (b << 30) || (s << 23) || (low 9 ofs << 12) || (prepost << 10) || (base << 5) || rt.
Definition W_STUR (b rt ofs base : Z) := 0x38000000 || (b << 30) || (low 9 ofs << 12) || (base << 5) || rt.
Definition W_STR_UIMM (b rt ofs base : Z) := 0x39000000 || (b << 30) || (low 12 ofs << 10) || (base << 5) || rt.
Definition W_STR (b rt ofs base prepost : Z) := 0x38000000 || (b << 30) || (low 9 ofs << 12) || (prepost << 10) || (base << 5) || rt.
Definition W_LDP (sz rs1 rs2 ofs base prepost : Z) := 0x28400000 || (sz << 31) || (prepost << 23) || (low 7 (Z.shiftr ofs 3) << 15) || (rs2 << 10) || (base << 5) || rs1.
Definition W_STP (sz rs1 rs2 ofs base prepost : Z) := 0x28000000 || (sz << 31) || (prepost << 23) || (low 7 (Z.shiftr ofs 3) << 15) || (rs2 << 10) || (base << 5) || rs1.
(* asm.h 555: the constant has bit 31 set *)
Definition W_ORN_S (sf rd rn rm imm6 : Z) := 0xAA2003E0 || (sf << 31) || rd || (rn << 5) || (rm << 16) || (imm6 << 10).
(* asm.h 560, with the [imm] 0 that its only caller passes *)
Definition W_ADRP (rd : Z) := 0x90000000 || rd.
(* asm.h 562-564 *)
Definition W_MRS (rt sysreg : Z) := 0xd5300000 || (sysreg << 5) || rt.
Definition W_CSINC (sz rd rn rm cond : Z) := 0x1a800400 || (sz << 31) || (rm << 16) || (cond << 12) || (rn << 5) || rd.
(* asm.h 566-577 *)
Definition W_B (offset : Z) := 0x14000000 || low 26 offset.
Definition W_BR (rn : Z) := 0xd61f0000 || (rn << 5).
Definition W_BCC (cond offset : Z) := 0x54000000 || (low 19 offset << 5) || cond.
Definition W_CBZ (sf rt offset : Z) := 0x34000000 || (sf << 31) || (low 19 offset << 5) || rt.
Definition W_CBNZ (sf rt offset : Z) := 0x35000000 || (sf << 31) || (low 19 offset << 5) || rt.
Definition W_BL (offset : Z) := 0x94000000 || low 26 offset.
Definition W_BLR (rn : Z) := 0xd63f0000 || (rn << 5).
Definition W_RET (rn : Z) := 0xd65f0000 || (rn << 5).
Definition W_NOP := 0xD503201F.
Definition W_SVC (imm : Z) := 0xd4000001 || (imm << 5).
(* asm.h 580-590; [63 >> (1 - sz)] is [top sz] *)
Definition top (sz : Z) := Z.shiftr 63 (1 - sz).
Definition P_MOV (sz rd rs : Z) := W_ORR_S sz rd ZERO rs 0.
Definition P_MOV_SP (sz rd rs : Z) := W_ADD_I sz rd rs 0.
Definition P_MUL (sz rd rn rm : Z) := W_MADD sz rd rn rm ZERO.
Definition P_CMP (sz rm rn : Z) := W_SUBS_S sz ZERO rm rn 0.
Definition P_CMP_I (sz rd imm : Z) := W_SUBS_I sz ZERO rd imm.
Definition P_CMN (sz rn rm : Z) := W_ADDS_S sz ZERO rn rm 0.
Definition P_CMN_I (sz rd imm : Z) := W_ADDS_I sz ZERO rd imm.
Definition P_LSL_I (sz rd rn imm : Z) := W_UBFM sz rd sz rn (Z.land (- imm) (top sz)) (top sz - imm).
Definition P_LSR_I (sz rd rn imm : Z) := W_UBFM sz rd sz rn imm (top sz).
Definition P_ASR_I (sz rd rn imm : Z) := W_SBFM sz rd sz rn imm (top sz).
Definition P_CSET (sz rd cond : Z) := W_CSINC sz rd ZERO ZERO (Z.lxor cond 1).
(* asm.h 594-601 *)
Definition F_LDUR (b s rt ofs base : Z) := 0xbc400000 || (b << 30) || (s << 23) || (low 9 ofs << 12) || (base << 5) || rt.
Definition F_LDR_UIMM (b s rt ofs base : Z) := 0xbd400000 || (b << 30) || (s << 23) || (low 12 ofs << 10) || (base << 5) || rt.
Definition W_F_LDR (b s rt ofs base prepost : Z) := 0xbc400000 || (b << 30) || (s << 23) || (low 9 ofs << 12) || (prepost << 10) || (base << 5) || rt.
Definition F_STUR (b rt ofs base : Z) := 0xbc000000 || (b << 30) || (low 9 ofs << 12) || (base << 5) || rt.
Definition F_STR_UIMM (b rt ofs base : Z) := 0xbd000000 || (b << 30) || (low 12 ofs << 10) || (base << 5) || rt.
Definition W_F_STR (b rt ofs base prepost : Z) := 0xbc000000 || (b << 30) || (low 9 ofs << 12) || (prepost << 10) || (base << 5) || rt.
Definition W_F_LDP (b rt ru base ofs prepost : Z) := 0x2c400000 || (b << 30) || (prepost << 23) || (Z.land ofs (2 ^ 10 - 2 ^ 3) << 12) || (ru << 10) || (base << 5) || rt.
Definition W_F_STP (b rt ru base ofs prepost : Z) := 0x2c000000 || (b << 30) || (prepost << 23) || (Z.land ofs (2 ^ 10 - 2 ^ 3) << 12) || (ru << 10) || (base << 5) || rt.
(* asm.h 606-615 *)
Definition W_FMOV_Z (sz rd rn : Z) := 0x1e270000 || (sz << 31) || (sz << 22) || (rn << 5) || rd.
Definition W_FMOV (sz rd rn : Z) := 0x1e204000 || (sz << 22) || (rn << 5) || rd.
Definition W_FMOV_I (sz rd imm8 : Z) := 0x1e201000 || (sz << 22) || (low 8 imm8 << 13) || rd.
Definition W_FADD (sz rd rn rm : Z) := 0x1e202800 || (sz << 22) || (rm << 16) || (rn << 5) || rd.
Definition W_FSUB (sz rd rn rm : Z) := 0x1e203800 || (sz << 22) || (rm << 16) || (rn << 5) || rd.
Definition W_FMUL (sz rd rn rm : Z) := 0x1e200800 || (sz << 22) || (rm << 16) || (rn << 5) || rd.
Definition W_FDIV (sz rd rn rm : Z) := 0x1e201800 || (sz << 22) || (rm << 16) || (rn << 5) || rd.
Definition W_FCMP (sz rd rn : Z) := 0x1e202000 || (sz << 22) || (rn << 16) || (rd << 5).
Definition W_FNEG (sz rd rn : Z) := 0x1e214000 || (sz << 22) || (rn << 5) || rd.
Definition W_FSQRT (sz rd rn : Z) := 0x1e21c000 || (sz << 22) || (rn << 5) || rd.
(* asm.h 617-621 *)
Definition W_SCVTF (dsz rt ssz rn : Z) := 0x1e220000 || (dsz << 31) || (ssz << 22) || (rn << 5) || rt.
Definition W_UCVTF (dsz rt ssz rn : Z) := 0x1e230000 || (dsz << 31) || (ssz << 22) || (rn << 5) || rt.
Definition W_FCVT (dsz rt rn : Z) := 0x1e224000 || ((1 - dsz) << 22) || (dsz << 15) || (rn << 5) || rt.
Definition W_FCVTZS (dsz rt ssz rn : Z) := 0x1e380000 || (dsz << 31) || (ssz << 22) || (rn << 5) || rt.
Definition W_FCVTZU (dsz rt ssz rn : Z) := 0x1e390000 || (dsz << 31) || (ssz << 22) || (rn << 5) || rt.
(* asm.h 624-628 *)
Definition W_FMADD (sz rd rn rm ra : Z) := 0x1f000000 || (sz << 22) || (rm << 16) || (ra << 10) || (rn << 5) || rd.
Definition W_FMSUB (sz rd rn rm ra : Z) := 0x1f008000 || (sz << 22) || (rm << 16) || (ra << 10) || (rn << 5) || rd.
Definition W_FNMSUB (sz rd rn rm ra : Z) := 0x1f208000 || (sz << 22) || (rm << 16) || (ra << 10) || (rn << 5) || rd.
End Words.

(** ** Choosing the opcode *)

(** the table, opcode.c 731-926 *)
Definition table (r : raw) : list (opc * list Z) :=
  let same3 o := [(o, [R32; R32; R32]); (o, [R64; R64; R64])] in
  let shifts r i := [(r, [R32; R32; R32]); (i, [R32; R32; IMM]);
                     (r, [R64; R64; R64]); (i, [R64; R64; IMM])] in
  let f2 o := [(o, [F32; F32]); (o, [F64; F64])] in
  let f3 o := [(o, [F32; F32; F32]); (o, [F64; F64; F64])] in
  let f4 o := [(o, [F32; F32; F32; F32]); (o, [F64; F64; F64; F64])] in
  match r with
  | R_NOOP | R_LABEL | R_LDRSW => []
  | R_MOV => [(MOV, [R32; R32]); (MOV, [R64 || RSP; R64 || RSP]); (MOV, [R32 || R64; IMM])]
  | R_MOVK => [(MOVK, [R32 || R64; IMM; SFT])]
  | R_ADD => [(ADD_R, [R32; R32; R32]); (ADD_R, [R32; R32; R32; EXT]);
              (ADD_I, [R32; R32; IMM]); (ADD_I, [R32; R32; SYM]);
              (ADD_R, [R64; R64; R64]); (ADD_R, [R64; R64; R64; EXT]);
              (ADD_R, [R64 || RSP; R64 || RSP; R64]);
              (ADD_I, [R64 || RSP; R64 || RSP; IMM]);
              (ADD_I, [R64 || RSP; R64 || RSP; SYM])]
  | R_SUB => [(SUB_R, [R32; R32; R32]); (SUB_R, [R32; R32; R32; EXT]);
              (SUB_I, [R32; R32; IMM]); (SUB_I, [R32; R32; SYM]);
              (SUB_R, [R64; R64; R64]); (SUB_R, [R64; R64; R64; EXT]);
              (SUB_R, [R64 || RSP; R64 || RSP; R64]);
              (SUB_I, [R64 || RSP; R64 || RSP; IMM]);
              (SUB_I, [R64 || RSP; R64 || RSP; SYM])]
  | R_MUL => same3 MUL | R_SDIV => same3 SDIV | R_UDIV => same3 UDIV
  | R_MADD => [(MADD, [R32; R32; R32; R32]); (MADD, [R64; R64; R64; R64])]
  | R_MSUB => [(MSUB, [R32; R32; R32; R32]); (MSUB, [R64; R64; R64; R64])]
  | R_AND => same3 AND | R_ORR => same3 ORR | R_EOR => same3 EOR | R_EON => same3 EON
  | R_CMP => [(CMP_R, [R32; R32]); (CMP_R, [R64; R64]); (CMP_I, [R32 || R64; IMM])]
  | R_CMN => [(CMN_R, [R32; R32]); (CMN_R, [R64; R64]); (CMN_I, [R32 || R64; IMM])]
  | R_LSL => shifts LSL_R LSL_I | R_LSR => shifts LSR_R LSR_I | R_ASR => shifts ASR_R ASR_I
  | R_SXTB => [(SXTB, [R32 || R64; R32])] | R_SXTH => [(SXTH, [R32 || R64; R32])]
  | R_SXTW => [(SXTW, [R64; R32])]
  | R_UXTB => [(UXTB, [R32 || R64; R32])] | R_UXTH => [(UXTH, [R32 || R64; R32])]
  | R_UXTW => [(UXTW, [R64; R32])]
  | R_LDRB => [(LDRB, [R32 || R64; IND || ROI])]
  | R_LDRH => [(LDRH, [R32 || R64; IND || ROI])]
  | R_LDR => [(LDR, [R32 || R64; IND || ROI]); (F_LDR, [F32 || F64; IND || ROI])]
  | R_LDRSB => [(LDRSB, [R32 || R64; IND || ROI])]
  | R_LDRSH => [(LDRSH, [R32 || R64; IND || ROI])]
  | R_STRB => [(STRB, [R32; IND || ROI])]
  | R_STRH => [(STRH, [R32; IND || ROI])]
  | R_STR => [(STR, [R32 || R64; IND || ROI]); (F_STR, [F32 || F64; IND || ROI])]
  | R_LDP => [(LDP, [R32; R32; IND]); (LDP, [R64; R64; IND]);
              (F_LDP, [F32; F32; IND]); (F_LDP, [F64; F64; IND])]
  | R_STP => [(STP, [R32; R32; IND]); (STP, [R64; R64; IND]);
              (F_STP, [F32; F32; IND]); (F_STP, [F64; F64; IND])]
  | R_ADRP => [(ADRP, [R64; SYM])]
  | R_CSET => [(CSET, [R32 || R64; CND])]
  | R_B => [(B, [SYM || IMM])] | R_BL => [(BL, [SYM || IMM])]
  | R_BR => [(BR, [R64])] | R_BLR => [(BLR, [R64])]
  | R_BCC c => [(BCC c, [SYM || IMM])]
  | R_RET => [(RET, [])]
  | R_SVC => [(SVC, [IMM])]
  | R_CBZ => [(CBZ, [R32; SYM || IMM]); (CBZ, [R64; SYM || IMM])]
  | R_CBNZ => [(CBNZ, [R32; SYM || IMM]); (CBNZ, [R64; SYM || IMM])]
  | R_MRS => [(MRS, [R64; IMM])]
  | R_FMOV => [(FMOV, [F32; F32 || R32]); (FMOV, [F64; F64 || R64]);
               (FMOV_I, [F32; IMM]); (FMOV_I, [F64; IMM])]
  | R_FADD => f3 FADD | R_FSUB => f3 FSUB | R_FMUL => f3 FMUL | R_FDIV => f3 FDIV
  | R_FCMP => f2 FCMP | R_FNEG => f2 FNEG | R_FSQRT => f2 FSQRT
  | R_SCVTF => [(SCVTF, [F32 || F64; R32 || R64])]
  | R_UCVTF => [(UCVTF, [F32 || F64; R32 || R64])]
  | R_FCVT => [(FCVT, [F64; F32]); (FCVT, [F32; F64])]
  | R_FCVTZS => [(FCVTZS, [R32 || R64; F32 || F64])]
  | R_FCVTZU => [(FCVTZU, [R32 || R64; F32 || F64])]
  | R_MVN => [(MVN, [R32; R32]); (MVN, [R64; R64])]
  | R_FMADD => f4 FMADD | R_FMSUB => f4 FMSUB | R_FNMSUB => f4 FNMSUB
  | R_NOP => [(NOP, [])]
  end.

Definition has (flag f : Z) : bool := negb (Z.land flag f =? 0).

(** match_operand_flags, opcode.c 928-982 *)
Definition match_operand (o : operand) (flag : Z) : res bool :=
  match o with
  | OReg r => if r_size r =? DWORD then Ok (has flag R32)
              else if r_size r =? QWORD then Ok (has flag R64) else Abort
  | OFreg r => if r_size r =? DWORD then Ok (has flag F32)
               else if r_size r =? QWORD then Ok (has flag F64) else Abort
  | OSym _ => Ok (has flag SYM)
  | OImm _ => Ok (has flag IMM)
  | OInd _ _ _ _ => Ok (has flag IND)
  | OCond _ => Ok (has flag CND)
  | OShift _ => Ok (has flag SFT)
  | OExt _ _ => Ok (has flag EXT)
  end.

(** the loop over the operands, opcode.c 1008-1014 *)
Fixpoint match_all (os : list operand) (fs : list Z) : res bool :=
  match os, fs with
  | o :: os, f :: fs =>
      bind (match_operand o f) (fun b => if b then match_all os fs else Ok false)
  | _, _ => Ok true
  end.

(** arm64_match_opcode, opcode.c 984-1021.  [None]: no row fits and [opcode]
    stays 0. *)
Fixpoint match_rows (rows : list (opc * list Z)) (os : list operand) : res (option opc) :=
  match rows with
  | [] => Ok None
  | (op, fs) :: rows =>
      if negb (Nat.eqb (length fs) (length os)) then match_rows rows os
      else bind (match_all os fs) (fun b => if b then Ok (Some op) else match_rows rows os)
  end.

(** ** The handlers *)

(** [opr->reg], [opr->immediate]: the member of the union that the code reads;
    another operand kind there would be a wrong read *)
Definition regof (o : operand) : res reg :=
  match o with OReg r | OFreg r => Ok r | _ => UB end.
Definition immof (o : operand) : res Z :=
  match o with OImm v | OShift v => Ok v | _ => UB end.
Definition opr (os : list operand) (i : nat) : res operand :=
  match nth_error os i with Some o => Ok o | None => UB end.
Definition rg (os : list operand) (i : nat) : res reg := bind (opr os i) regof.

Definition u32 (w : Z) : Z := w mod 2 ^ 32.
(** [size == QWORD ? 1 : 0] *)
Definition szof (r : reg) : Z := if r_size r =? QWORD then 1 else 0.
Definition check (b : bool) : res unit := if b then Ok tt else Abort.

(** pre_post_map, opcode.c 7 *)
Definition pre_post_map (p : Z) : res Z :=
  if p =? 0 then Ok 2 else if p =? 1 then Ok 3 else if p =? 2 then Ok 1 else UB.

(** is_sp, opcode.c 9-11 *)
Definition is_sp (r : reg) : bool := r_sp r && (r_idx r =? 31).

(** asm_mov, opcode.c 22-51 *)
Definition asm_mov (os : list operand) : res Z :=
  bind (rg os 0) (fun r1 => bind (opr os 1) (fun o2 =>
  match o2 with
  | OReg r2 =>
      bind (check (r_size r1 =? r_size r2)) (fun _ =>
      if is_sp r1 || is_sp r2 then Ok (P_MOV_SP (szof r1) (r_idx r1) (r_idx r2))
      else Ok (P_MOV (szof r1) (r_idx r1) (r_idx r2)))%bool
  | OImm imm =>
      if 0 <=? imm then Ok (W_MOVZ (szof r1) (r_idx r1) imm 0)
      else Ok (W_MOVN (szof r1) (r_idx r1) (Z.lnot imm) 0)
  | _ => Abort
  end)).

(** asm_movk, opcode.c 53-62 *)
Definition asm_movk (os : list operand) : res Z :=
  bind (rg os 0) (fun r1 => bind (bind (opr os 1) immof) (fun imm =>
  bind (opr os 2) (fun o3 =>
  match o3 with
  | OShift sh =>
      bind (check (Z.land sh 15 =? 0)) (fun _ =>
      Ok (W_MOVK (szof r1) (r_idx r1) imm (Z.shiftr sh 4)))
  | _ => Abort
  end))).

(** the ADD_R and SUB_R cases of asm_3r, opcode.c 74-109 *)
Definition asm_addsub (sft ext : Z -> Z -> Z -> Z -> Z -> Z -> Z)
    (os : list operand) (r1 r2 r3 : reg) : res Z :=
  let sz := szof r1 in
  if Nat.eqb (length os) 3 then
    if negb (is_sp r1) && negb (is_sp r2)
    then Ok (sft sz (r_idx r1) (r_idx r2) (r_idx r3) 0 0)
    else Ok (ext sz (r_idx r1) (r_idx r2) (r_idx r3) 3 0)
  else
    bind (opr os 3) (fun o4 =>
    match o4 with
    | OExt option imm =>
        if option <? 8 then Ok (ext sz (r_idx r1) (r_idx r2) (r_idx r3) option imm)
        else Ok (sft sz (r_idx r1) (r_idx r2) (r_idx r3) (Z.land option 3) imm)
    | _ => Abort
    end).

(** asm_3r, opcode.c 64-143 *)
Definition asm_3r (op : opc) (os : list operand) : res Z :=
  bind (rg os 0) (fun r1 => bind (rg os 1) (fun r2 => bind (rg os 2) (fun r3 =>
  bind (check (r_size r1 =? r_size r2)) (fun _ =>
  bind (check (r_size r1 =? r_size r3)) (fun _ =>
  let sz := szof r1 in
  let d := r_idx r1 in let n := r_idx r2 in let m := r_idx r3 in
  match op with
  | ADD_R => asm_addsub W_ADD_S W_ADD_E os r1 r2 r3
  | SUB_R => asm_addsub W_SUB_S W_SUB_E os r1 r2 r3
  | MUL => Ok (P_MUL sz d n m)
  | SDIV => Ok (W_SDIV sz d n m)
  | UDIV => Ok (W_UDIV sz d n m)
  | AND => Ok (W_AND_S sz d n m 0)
  | ORR => Ok (W_ORR_S sz d n m 0)
  | EOR => Ok (W_EOR_S sz d n m 0)
  | EON => Ok (W_EON_S sz d n m 0)
  | LSL_R => Ok (W_LSLV sz d n m)
  | LSR_R => Ok (W_LSRV sz d n m)
  | ASR_R => Ok (W_ASRV sz d n m)
  | _ => Abort
  end))))).

(** asm_2ri, opcode.c 145-179 *)
Definition asm_2ri (op : opc) (os : list operand) : res Z :=
  bind (rg os 0) (fun r1 => bind (rg os 1) (fun r2 => bind (opr os 2) (fun o3 =>
  bind (check (r_size r1 =? r_size r2)) (fun _ =>
  let sz := szof r1 in
  let d := r_idx r1 in let n := r_idx r2 in
  let imm := match o3 with OImm v => v | _ => 0 end in
  if (imm <? -4095) || (4095 <? imm) then Ok 0 else
  match op with
  | ADD_I => if 0 <=? imm then Ok (W_ADD_I sz d n imm) else Ok (W_SUB_I sz d n (- imm))
  | SUB_I => if 0 <=? imm then Ok (W_SUB_I sz d n imm) else Ok (W_ADD_I sz d n (- imm))
  | LSL_I => Ok (P_LSL_I sz d n imm)
  | LSR_I => Ok (P_LSR_I sz d n imm)
  | ASR_I => Ok (P_ASR_I sz d n imm)
  | _ => Abort
  end))))%bool.

(** asm_2r, opcode.c 181-209 *)
Definition asm_2r (op : opc) (os : list operand) : res Z :=
  bind (rg os 0) (fun r1 => bind (rg os 1) (fun r2 =>
  let sz := szof r1 in
  let d := r_idx r1 in let n := r_idx r2 in
  let sext k := bind (check (r_size r2 =? DWORD)) (fun _ =>
                Ok (W_SBFM sz d sz n 0 (Z.shiftl 8 k - 1))) in
  let uext k := bind (check (r_size r2 =? DWORD)) (fun _ =>
                Ok (W_UBFM 0 d 0 n 0 (Z.shiftl 8 k - 1))) in
  match op with
  | CMP_R => Ok (P_CMP sz d n)
  | CMN_R => Ok (P_CMN sz d n)
  | SXTB => sext 0 | SXTH => sext 1 | SXTW => sext 2
  | UXTB => uext 0 | UXTH => uext 1
  | UXTW => Ok (P_MOV 0 d n)
  | _ => Abort
  end)).

(** asm_ri, opcode.c 211-231 *)
Definition asm_ri (op : opc) (os : list operand) : res Z :=
  bind (rg os 0) (fun r1 => bind (opr os 1) (fun o2 =>
  let imm := match o2 with OImm v => v | _ => 0 end in
  if (imm <? 0) || (4095 <? imm) then Ok 0 else
  match op with
  | CMP_I => Ok (P_CMP_I (szof r1) (r_idx r1) imm)
  | CMN_I => Ok (P_CMN_I (szof r1) (r_idx r1) imm)
  | _ => Abort
  end))%bool.

(** asm_4r, opcode.c 233-251 *)
Definition asm_4r (op : opc) (os : list operand) : res Z :=
  bind (rg os 0) (fun r1 => bind (rg os 1) (fun r2 => bind (rg os 2) (fun r3 =>
  bind (rg os 3) (fun r4 =>
  bind (check (r_size r1 =? r_size r2)) (fun _ =>
  bind (check (r_size r1 =? r_size r3)) (fun _ =>
  bind (check (r_size r1 =? r_size r4)) (fun _ =>
  let sz := szof r1 in
  match op with
  | MADD => Ok (W_MADD sz (r_idx r1) (r_idx r2) (r_idx r3) (r_idx r4))
  | MSUB => Ok (W_MSUB sz (r_idx r1) (r_idx r2) (r_idx r3) (r_idx r4))
  | _ => Abort
  end))))))).

(** [inst->opcode - LDRB]: the order of the enumeration, asm.h 203-211 *)
Definition from_ldrb (op : opc) : Z :=
  match op with
  | LDRB => 0 | LDRH => 1 | LDR => 2 | LDRSB => 3 | LDRSH => 4
  | STRB => 6 | STRH => 7 | STR => 8 | _ => 0
  end.
Definition is_load (op : opc) : bool :=
  match op with LDRB | LDRH | LDR | LDRSB | LDRSH => true | _ => false end.
Definition is_store (op : opc) : bool :=
  match op with STRB | STRH | STR => true | _ => false end.
(** [b] and [s], opcode.c 264-270, 287-292 *)
Definition ld_b (op : opc) (sz : Z) : Z :=
  Z.lor (if 3 <=? from_ldrb op then from_ldrb op - 3 else from_ldrb op) sz.
Definition ld_s (op : opc) : Z := if 3 <=? from_ldrb op then 1 else 0.
(** the scaled offset, opcode.c 295-299, 314-318 *)
Definition scaled (op : opc) (sz ofs : Z) : Z :=
  match op with
  | LDR | STR => Z.shiftr ofs (2 + sz)
  | LDRH | LDRSH | STRH => Z.shiftr ofs 1
  | _ => ofs
  end.

(** asm_ldrstr, opcode.c 253-389, for [reg + offset] operands *)
Definition asm_ldrstr (op : opc) (os : list operand) : res Z :=
  bind (rg os 0) (fun r1 => bind (opr os 1) (fun o2 =>
  let sz := szof r1 in
  let t := r_idx r1 in
  match o2 with
  | OInd base ofs pp sym =>
      bind (check (r_size base =? QWORD)) (fun _ =>
      if sym then Ok (W_LDR_UIMM (ld_b op sz) (ld_s op) t 0 (r_idx base)) else
      bind (check ((ofs <=? 4095) && (-4096 <=? ofs))) (fun _ =>
      bind (pre_post_map pp) (fun prepost =>
      if is_load op then
        if pp =? 0 then
          if 0 <=? ofs
          then Ok (W_LDR_UIMM (ld_b op sz) (ld_s op) t (scaled op sz ofs) (r_idx base))
          else Ok (W_LDUR (ld_b op sz) (ld_s op) t ofs (r_idx base))
        else Ok (W_LDR (ld_b op sz) (ld_s op) t ofs (r_idx base) prepost)
      else if is_store op then
        let b := Z.lor (from_ldrb op - 6) sz in
        if pp =? 0 then
          if 0 <=? ofs then Ok (W_STR_UIMM b t (scaled op sz ofs) (r_idx base))
          else Ok (W_STUR b t ofs (r_idx base))
        else Ok (W_STR b t ofs (r_idx base) prepost)
      else Abort)))
  | _ => Abort
  end)).

(** asm_ldpstp, opcode.c 391-409 *)
Definition asm_ldpstp (op : opc) (os : list operand) : res Z :=
  bind (rg os 0) (fun r1 => bind (rg os 1) (fun r2 => bind (opr os 2) (fun o3 =>
  bind (check (r_size r1 =? r_size r2)) (fun _ =>
  match o3 with
  | OInd base ofs pp _ =>
      bind (check (r_size base =? QWORD)) (fun _ =>
      bind (check ((ofs <? 512) && (-512 <=? ofs))) (fun _ =>
      bind (pre_post_map pp) (fun prepost =>
      match op with
      | LDP => Ok (W_LDP (szof r1) (r_idx r1) (r_idx r2) ofs (r_idx base) prepost)
      | STP => Ok (W_STP (szof r1) (r_idx r1) (r_idx r2) ofs (r_idx base) prepost)
      | _ => Abort
      end)))
  | _ => UB
  end)))).

(** asm_adrp, opcode.c 411-416 *)
Definition asm_adrp (os : list operand) : res Z :=
  bind (rg os 0) (fun r1 => if r_size r1 =? QWORD then Ok (W_ADRP (r_idx r1)) else Ok 0).

(** asm_cset, opcode.c 418-423 *)
Definition asm_cset (os : list operand) : res Z :=
  bind (rg os 0) (fun r1 => bind (opr os 1) (fun o2 =>
  match o2 with
  | OCond c => Ok (P_CSET (szof r1) (r_idx r1) c)
  | _ => UB
  end)).

(** the offset of a branch, e.g. opcode.c 429-438; C's division goes towards
    zero *)
Definition branch_off (o : operand) : res Z :=
  match o with
  | OSym off => Ok (Z.quot off 4)
  | OImm off => Ok (Z.quot off 4)
  | _ => Abort
  end.
(** asm_b 425-441, asm_bl 444-460, asm_bcc 470-486 (the case of B there is
    never reached: B goes to asm_b) *)
Definition asm_b (os : list operand) : res Z :=
  bind (opr os 0) (fun o => bind (branch_off o) (fun off => Ok (W_B off))).
Definition asm_bl (os : list operand) : res Z :=
  bind (opr os 0) (fun o => bind (branch_off o) (fun off => Ok (W_BL off))).
Definition asm_bcc (c : Z) (os : list operand) : res Z :=
  bind (opr os 0) (fun o => bind (branch_off o) (fun off => Ok (W_BCC c off))).
(** asm_cbz 488-505, asm_cbnz 507-524 *)
Definition asm_cb (w : Z -> Z -> Z -> Z) (os : list operand) : res Z :=
  bind (rg os 0) (fun r1 => bind (opr os 1) (fun o =>
  bind (branch_off o) (fun off => Ok (w (szof r1) (r_idx r1) off)))).

(** asm_br 462-468, asm_blr 527-533, asm_ret 535-537 *)
Definition asm_br (w : Z -> Z) (os : list operand) : res Z :=
  bind (rg os 0) (fun r1 => if r_size r1 =? QWORD then Ok (w (r_idx r1)) else Ok 0).

(** asm_svc 539-542, asm_mrs 544-556 *)
Definition asm_svc (os : list operand) : res Z :=
  bind (bind (opr os 0) immof) (fun imm => Ok (W_SVC imm)).
Definition asm_mrs (os : list operand) : res Z :=
  bind (rg os 0) (fun r1 => bind (bind (opr os 1) immof) (fun imm =>
  if r_size r1 =? QWORD then Ok (W_MRS (r_idx r1) (u32 imm)) else Ok 0)).

(** asm_f_ldrstr, opcode.c 558-614, for [reg + offset] operands *)
Definition asm_f_ldrstr (op : opc) (os : list operand) : res Z :=
  bind (rg os 0) (fun r1 => bind (opr os 1) (fun o2 =>
  let sz := szof r1 in
  let t := r_idx r1 in
  match o2 with
  | OInd base ofs pp _ =>
      bind (check (r_size base =? QWORD)) (fun _ =>
      bind (check ((ofs <? 512) && (-512 <=? ofs))) (fun _ =>
      bind (pre_post_map pp) (fun prepost =>
      match op with
      | F_LDR =>
          if pp =? 0 then
            if 0 <=? ofs then Ok (F_LDR_UIMM sz 0 t (Z.shiftr ofs (2 + sz)) (r_idx base))
            else Ok (F_LDUR sz 0 t ofs (r_idx base))
          else Ok (W_F_LDR sz 0 t ofs (r_idx base) prepost)
      | F_STR =>
          if pp =? 0 then
            if 0 <=? ofs then Ok (F_STR_UIMM sz t (Z.shiftr ofs (2 + sz)) (r_idx base))
            else Ok (F_STUR sz t ofs (r_idx base))
          else Ok (W_F_STR sz t ofs (r_idx base) prepost)
      | _ => Abort
      end)))
  | _ => Abort
  end)).

(** asm_f_ldpstp, opcode.c 616-635 *)
Definition asm_f_ldpstp (op : opc) (os : list operand) : res Z :=
  bind (rg os 0) (fun r1 => bind (rg os 1) (fun r2 => bind (opr os 2) (fun o3 =>
  match o3 with
  | OInd base ofs pp _ =>
      bind (check (r_size base =? QWORD)) (fun _ =>
      bind (check ((ofs <? 512) && (-512 <=? ofs))) (fun _ =>
      bind (pre_post_map pp) (fun prepost =>
      match op with
      | F_LDP => Ok (W_F_LDP (szof r1) (r_idx r1) (r_idx r2) (r_idx base) ofs prepost)
      | F_STP => Ok (W_F_STP (szof r1) (r_idx r1) (r_idx r2) (r_idx base) ofs prepost)
      | _ => Abort
      end)))
  | _ => UB
  end))).

(** asm_f_3r, opcode.c 637-656 *)
Definition asm_f_3r (op : opc) (os : list operand) : res Z :=
  bind (rg os 0) (fun r1 => bind (rg os 1) (fun r2 => bind (rg os 2) (fun r3 =>
  let sz := szof r1 in
  match op with
  | FADD => Ok (W_FADD sz (r_idx r1) (r_idx r2) (r_idx r3))
  | FSUB => Ok (W_FSUB sz (r_idx r1) (r_idx r2) (r_idx r3))
  | FMUL => Ok (W_FMUL sz (r_idx r1) (r_idx r2) (r_idx r3))
  | FDIV => Ok (W_FDIV sz (r_idx r1) (r_idx r2) (r_idx r3))
  | _ => Abort
  end))).

(** asm_f_4r, opcode.c 658-676 *)
Definition asm_f_4r (op : opc) (os : list operand) : res Z :=
  bind (rg os 0) (fun r1 => bind (rg os 1) (fun r2 => bind (rg os 2) (fun r3 =>
  bind (rg os 3) (fun r4 =>
  let sz := szof r1 in
  match op with
  | FMADD => Ok (W_FMADD sz (r_idx r1) (r_idx r2) (r_idx r3) (r_idx r4))
  | FMSUB => Ok (W_FMSUB sz (r_idx r1) (r_idx r2) (r_idx r3) (r_idx r4))
  | FNMSUB => Ok (W_FNMSUB sz (r_idx r1) (r_idx r2) (r_idx r3) (r_idx r4))
  | _ => Abort
  end)))).

(** asm_f_2r, opcode.c 678-710 *)
Definition asm_f_2r (op : opc) (os : list operand) : res Z :=
  bind (rg os 0) (fun r1 => bind (opr os 1) (fun o2 => bind (regof o2) (fun r2 =>
  let dsz := szof r1 in
  let ssz := szof r2 in
  let d := r_idx r1 in let n := r_idx r2 in
  match op with
  | FMOV => match o2 with
            | OReg _ => Ok (W_FMOV_Z dsz d n)
            | _ => Ok (W_FMOV dsz d n)
            end
  | FCMP => Ok (W_FCMP dsz d n)
  | FNEG => Ok (W_FNEG dsz d n)
  | FSQRT => Ok (W_FSQRT dsz d n)
  | SCVTF => Ok (W_SCVTF ssz d dsz n)
  | UCVTF => Ok (W_UCVTF ssz d dsz n)
  | FCVT => Ok (W_FCVT dsz d n)
  | FCVTZS => Ok (W_FCVTZS dsz d ssz n)
  | FCVTZU => Ok (W_FCVTZU dsz d ssz n)
  | _ => Abort
  end))).

(** asm_fmov_i 712-719, asm_mvn 721-728 *)
Definition asm_fmov_i (os : list operand) : res Z :=
  bind (rg os 0) (fun r1 => bind (bind (opr os 1) immof) (fun imm =>
  Ok (W_FMOV_I (szof r1) (r_idx r1) (Z.land imm 255)))).
Definition asm_mvn (os : list operand) : res Z :=
  bind (rg os 0) (fun r1 => bind (rg os 1) (fun r2 =>
  Ok (W_ORN_S (szof r1) (r_idx r1) 31 (r_idx r2) 0))).

(** the table of handlers, opcode.c 1025-1120 *)
Definition handler (op : opc) (os : list operand) : res Z :=
  match op with
  | MOV => asm_mov os
  | MOVK => asm_movk os
  | ADD_R | SUB_R | MUL | SDIV | UDIV | AND | ORR | EOR | EON
  | LSL_R | LSR_R | ASR_R => asm_3r op os
  | ADD_I | SUB_I | LSL_I | LSR_I | ASR_I => asm_2ri op os
  | MADD | MSUB => asm_4r op os
  | CMP_R | CMN_R | SXTB | SXTH | SXTW | UXTB | UXTH | UXTW => asm_2r op os
  | CMP_I | CMN_I => asm_ri op os
  | LDRB | LDRH | LDR | LDRSB | LDRSH | STRB | STRH | STR => asm_ldrstr op os
  | LDP | STP => asm_ldpstp op os
  | ADRP => asm_adrp os
  | CSET => asm_cset os
  | B => asm_b os
  | BL => asm_bl os
  | BR => asm_br W_BR os
  | BLR => asm_br W_BLR os
  | RET => Ok (W_RET LR)
  | BCC c => asm_bcc c os
  | CBZ => asm_cb W_CBZ os
  | CBNZ => asm_cb W_CBNZ os
  | SVC => asm_svc os
  | MRS => asm_mrs os
  | F_LDR | F_STR => asm_f_ldrstr op os
  | F_LDP | F_STP => asm_f_ldpstp op os
  | FMOV | FCMP | FNEG | FSQRT | SCVTF | UCVTF | FCVT | FCVTZS | FCVTZU => asm_f_2r op os
  | FMOV_I => asm_fmov_i os
  | FADD | FSUB | FMUL | FDIV => asm_f_3r op os
  | FMADD | FMSUB | FNMSUB => asm_f_4r op os
  | MVN => asm_mvn os
  | NOP => Ok W_NOP
  end.

(** arm64_asm_inst_encoding, opcode.c 1122-1134: the 32-bit word, written
    little-endian by the caller *)
Definition encode (r : raw) (os : list operand) : res Z :=
  match r with
  | R_NOOP => Abort                      (* assert(inst->raw_opcode) *)
  | _ =>
    bind (match_rows (table r) os) (fun m =>
    match m with
    | None => Abort                      (* assert(inst->opcode > 0) *)
    | Some op =>
        bind (handler op os) (fun w =>
        if 0 <? u32 w then Ok (u32 w) else Abort)  (* assert(result > 0) *)
    end)
  end.

(** ** Floating-point constants

    arm64_fmov_double_to_imm8, fmov_imm8.h 13-70; [bits] is the double as a
    64-bit number *)
Definition double_to_imm8 (bits : Z) : Z :=
  let sign := Z.land (Z.shiftr bits 63) 1 in
  let exp := Z.land (Z.shiftr bits 52) 0x7FF in
  let frac := Z.land bits 0xFFFFFFFFFFFFF in
  if ((exp =? 0) || (exp =? 0x7FF))%bool then 0xFF
  else if negb (Z.land frac 0xFFFFFFFFFFFF =? 0) then 0xFF
  else
    let exp10 := Z.land (Z.shiftr exp 10) 1 in
    let exp9_2 := Z.land (Z.shiftr exp 2) 0xFF in
    let exp1_0 := Z.land exp 3 in
    if (negb (exp9_2 =? 0) && negb (exp9_2 =? 0xFF))%bool then 0xFF
    else
      let bit6 := if exp9_2 =? 0xFF then 1 else 0 in
      if negb (exp10 =? Z.lxor bit6 1) then 0xFF
      else
        Z.shiftl sign 7 || Z.shiftl bit6 6 || Z.shiftl exp1_0 4
        || Z.land (Z.shiftr frac 48) 0xF.
