(** Machine code of amd64 instructions: how an assembler instruction is matched
    with an entry of the instruction table and written as bytes.

    Code modelled: src/binary/encoding/amd64/opcode.c (the table 11-526 in the
    order of amd64_opcode_init 552-883, operand_low_to_high 896-1153,
    opcode_find_succs 1184-1207, opcode_select 1280-1364, opcode_sort_insts
    1366-1391, build_ext 1432-1541, opcode_fill 1630-1973,
    opcode_format_encoding 2065-2099), the operands of asm.h 42-238, the
    displacement slot rip_offset of src/binary/arch/amd64.h 28-65, and the
    translation of memory operands lir_operand_trans_amd64
    (src/native/amd64.c 124-217).

    Simplifications, everywhere in this file:
    - a register is its class and its number; the names compared by has_64_reg
      and is_high_eight_reg (opcode.c 1211-1247) are recovered from these;
    - the branches for VEX prefixes and for the 128-bit and 256-bit operand
      types are left out: no entry of the table uses them;
    - the custom prefix of an assembler instruction is left out: only the macro
      MOVSQ (asm.h 19-25) sets it and nothing uses that macro;
    - the tree of candidates is the list of table entries filtered by name and
      operand keys, in the order of the table. *)
From Coq Require Import ZArith List Bool Lia String.
From Verif Require Import Base.
Import ListNotations.
Open Scope Z_scope.

(** ** Registers and operands *)

(** The register file, src/register/arch/amd64.c 180-290: general registers of
    1, 2, 4 and 8 bytes numbered 0-15, the four high bytes ah, ch, dh, bh
    numbered 4-7 (line 250-253), and the names of the xmm registers for 4, 8
    and 16 bytes. *)
Inductive rclass := G8 | G8H | G16 | G32 | G64 | X32 | X64 | X128.
Record reg := Rg { r_class : rclass; r_index : Z }.

(** [size] of a register, amd64.c 180-340 *)
Definition class_size (c : rclass) : Z :=
  match c with
  | G8 | G8H => 1 | G16 => 2 | G32 => 4 | G64 => 8
  | X32 => 4 | X64 => 8 | X128 => 16
  end.

(** the flag LIR_FLAG_ALLOC_FLOAT, asm.h 43-48 *)
Definition is_float (c : rclass) : bool :=
  match c with X32 | X64 | X128 => true | _ => false end.

(** segment registers that opcode.c 1848-1852 knows *)
Inductive segm := Fs | Gs.

(** amd64_asm_operand_t, asm.h 42-238.  Immediates are the unsigned value of
    their C type; displacements are int32.  Symbols are replaced before
    encoding (amd64.h 102-175). *)
Inductive operand :=
| OReg (r : reg)
| OInd (r : reg) (size : Z)
| ODisp (r : reg) (disp : Z) (size : Z)
| OSib (base index : option reg) (scale disp size : Z)
| ORip (disp size : Z)
| OSeg (s : segm) (off size : Z)
| OUint8 (v : Z)
| OUint16 (v : Z)
| OUint32 (v : Z)
| OUint64 (v : Z)
| OUint (v : Z)
| OFloat32 (bits : Z)
| OFloat64 (bits : Z)
| OSym (size : Z).

(** amd64_asm_operand_type, asm.h 151-169 *)
Inductive okind :=
| KREG | KFREG | KINDIRECT | KDISP | KSIB | KRIP | KSEG | KSYMBOL
| KUINT8 | KUINT16 | KUINT32 | KUINT64 | KUINT | KFLOAT32 | KFLOAT64.

(** asm_operand_to_key, opcode.c 891-894: the type and the size *)
Definition key := (okind * Z)%type.

(** the key of an operand: its type and size fields, asm.h 42-149 *)
Definition key_of (o : operand) : key :=
  match o with
  | OReg r => (if is_float (r_class r) then KFREG else KREG, class_size (r_class r))
  | OInd _ s => (KINDIRECT, s)
  | ODisp _ _ s => (KDISP, s)
  | OSib _ _ _ _ s => (KSIB, s)
  | ORip _ s => (KRIP, s)
  | OSeg _ _ s => (KSEG, s)
  | OUint8 _ => (KUINT8, 1)
  | OUint16 _ => (KUINT16, 2)
  | OUint32 _ => (KUINT32, 4)
  | OUint64 _ => (KUINT64, 8)
  | OUint _ => (KUINT, 8)
  | OFloat32 _ => (KFLOAT32, 16)
  | OFloat64 _ => (KFLOAT64, 16)
  | OSym s => (KSYMBOL, s)
  end.

(** equality of the types and of the keys: the string comparison of
    opcode.c 1322-1327 *)
Definition okind_eqb (a b : okind) : bool :=
  match a, b with
  | KREG, KREG | KFREG, KFREG | KINDIRECT, KINDIRECT | KDISP, KDISP
  | KSIB, KSIB | KRIP, KRIP | KSEG, KSEG | KSYMBOL, KSYMBOL
  | KUINT8, KUINT8 | KUINT16, KUINT16 | KUINT32, KUINT32 | KUINT64, KUINT64
  | KUINT, KUINT | KFLOAT32, KFLOAT32 | KFLOAT64, KFLOAT64 => true
  | _, _ => false
  end.
Definition key_eqb (a b : key) : bool :=
  okind_eqb (fst a) (fst b) && (snd a =? snd b).

(** ** The instruction table *)

(** opcode_ext, opcode.h 10-38, without the VEX ones *)
Inductive ext :=
| IMM_BYTE | IMM_WORD | IMM_DWORD | IMM_QWORD
| SLASH0 | SLASH1 | SLASH2 | SLASH3 | SLASH4 | SLASH5 | SLASH6 | SLASH7
| SLASHR | REX | REX_W.

(** inst_operand_type, opcode.h 43-82, the ones the table uses *)
Inductive low :=
| REL8 | REL32 | M | M32 | M64 | R8 | R16 | R32 | R64
| RM8 | RM16 | RM32 | RM64 | SEG64 | IMM8 | IMM16 | IMM32 | IMM64
| XMM1S64 | XMM1S32 | XMM1M64 | XMM2S64 | XMM2S32 | XMM2M32 | XMM2M64.

(** the values of the enumeration, opcode.h 43-82, compared by
    opcode_sort_insts *)
Definition low_num (l : low) : Z :=
  match l with
  | REL8 => 1 | REL32 => 3 | M => 4 | M32 => 6 | M64 => 7
  | R8 => 8 | R16 => 9 | R32 => 10 | R64 => 11
  | RM8 => 12 | RM16 => 13 | RM32 => 14 | RM64 => 15 | SEG64 => 16
  | IMM8 => 17 | IMM16 => 18 | IMM32 => 19 | IMM64 => 20
  | XMM1S64 => 22 | XMM1S32 => 23 | XMM1M64 => 24
  | XMM2S64 => 27 | XMM2S32 => 28 | XMM2M32 => 29 | XMM2M64 => 30
  end.

(** encoding_type, opcode.h 84-90 *)
Inductive enc := MODRM_RM | MODRM_REG | IMM | OPCODE_PLUS.

(** amd64_opcode_inst_t, opcode.h 157-164; the opcode bytes as written in the
    initializer, the missing ones being zero *)
Record tmpl := T {
  t_group : string;
  t_prefix : Z;
  t_opcode : list Z;
  t_ext : list ext;
  t_ops : list (low * enc)
}.

Local Open Scope string_scope.
(** opcode.c 11-526, in the order of amd64_opcode_init 552-883; before each
    entry its C name and line *)
Definition table : list tmpl := [
  (* lea_r64_m:241 *) T "lea" 0 [141] [REX_W; SLASHR] [(R64, MODRM_REG); (M, MODRM_RM)];
  (* syscall_inst:246 *) T "syscall_inst" 0 [15; 5] [] [];
  (* call_rm64:13 *) T "call" 0 [255] [SLASH2] [(RM64, MODRM_RM)];
  (* call_rel32:18 *) T "call" 0 [232] [IMM_DWORD] [(REL32, IMM)];
  (* jmp_rel8:20 *) T "jmp" 0 [235] [IMM_BYTE] [(REL8, IMM)];
  (* jmp_rel32:22 *) T "jmp" 0 [233] [IMM_DWORD] [(REL32, IMM)];
  (* je_rel8:24 *) T "je" 0 [116] [IMM_BYTE] [(REL8, IMM)];
  (* je_rel32:26 *) T "je" 0 [15; 132] [IMM_DWORD] [(REL32, IMM)];
  (* jne_rel8:29 *) T "jne" 0 [117] [IMM_BYTE] [(REL8, IMM)];
  (* jne_rel32:31 *) T "jne" 0 [15; 133] [IMM_DWORD] [(REL32, IMM)];
  (* ja_rel8:34 *) T "ja" 0 [119] [IMM_BYTE] [(REL8, IMM)];
  (* ja_rel32:36 *) T "ja" 0 [15; 135] [IMM_DWORD] [(REL32, IMM)];
  (* jae_rel8:39 *) T "jae" 0 [115] [IMM_BYTE] [(REL8, IMM)];
  (* jae_rel32:41 *) T "jae" 0 [15; 131] [IMM_DWORD] [(REL32, IMM)];
  (* jb_rel8:44 *) T "jb" 0 [114] [IMM_BYTE] [(REL8, IMM)];
  (* jb_rel32:46 *) T "jb" 0 [15; 130] [IMM_DWORD] [(REL32, IMM)];
  (* jbe_rel8:49 *) T "jbe" 0 [118] [IMM_BYTE] [(REL8, IMM)];
  (* jbe_rel32:51 *) T "jbe" 0 [15; 134] [IMM_DWORD] [(REL32, IMM)];
  (* jg_rel8:54 *) T "jg" 0 [127] [IMM_BYTE] [(REL8, IMM)];
  (* jg_rel32:56 *) T "jg" 0 [15; 143] [IMM_DWORD] [(REL32, IMM)];
  (* jge_rel8:59 *) T "jge" 0 [125] [IMM_BYTE] [(REL8, IMM)];
  (* jge_rel32:61 *) T "jge" 0 [15; 141] [IMM_DWORD] [(REL32, IMM)];
  (* jl_rel8:64 *) T "jl" 0 [124] [IMM_BYTE] [(REL8, IMM)];
  (* jl_rel32:66 *) T "jl" 0 [15; 140] [IMM_DWORD] [(REL32, IMM)];
  (* jle_rel8:69 *) T "jle" 0 [126] [IMM_BYTE] [(REL8, IMM)];
  (* jle_rel32:71 *) T "jle" 0 [15; 142] [IMM_DWORD] [(REL32, IMM)];
  (* ret:249 *) T "ret" 0 [195] [] [];
  (* push_rm64:253 *) T "push" 0 [255] [SLASH6] [(RM64, MODRM_RM)];
  (* push_r64:251 *) T "push" 0 [80] [] [(R64, OPCODE_PLUS)];
  (* pop_r64:255 *) T "pop" 0 [88] [] [(R64, OPCODE_PLUS)];
  (* pop_rm64:257 *) T "pop" 0 [143] [SLASH0] [(RM64, MODRM_RM)];
  (* add_rex_rm8_imm8:163 *) T "add" 0 [128] [REX; SLASH0; IMM_BYTE] [(RM8, MODRM_RM); (IMM8, IMM)];
  (* add_rm8_imm8:162 *) T "add" 0 [128] [SLASH0; IMM_BYTE] [(RM8, MODRM_RM); (IMM8, IMM)];
  (* add_rm16_imm16:164 *) T "add" 102 [129] [SLASH0; IMM_WORD] [(RM16, MODRM_RM); (IMM16, IMM)];
  (* add_rm32_imm32:165 *) T "add" 0 [129] [SLASH0; IMM_DWORD] [(RM32, MODRM_RM); (IMM32, IMM)];
  (* add_rm64_imm32:166 *) T "add" 0 [129] [REX_W; SLASH0; IMM_DWORD] [(RM64, MODRM_RM); (IMM32, IMM)];
  (* add_rex_rm8_r8:168 *) T "add" 0 [0] [REX; SLASHR] [(RM8, MODRM_RM); (R8, MODRM_REG)];
  (* add_rm8_r8:167 *) T "add" 0 [0] [SLASHR] [(RM8, MODRM_RM); (R8, MODRM_REG)];
  (* add_rm16_r16:169 *) T "add" 102 [1] [SLASHR] [(RM16, MODRM_RM); (R16, MODRM_REG)];
  (* add_rm32_r32:170 *) T "add" 0 [1] [SLASHR] [(RM32, MODRM_RM); (R32, MODRM_REG)];
  (* add_rm64_r64:171 *) T "add" 0 [1] [REX_W; SLASHR] [(RM64, MODRM_RM); (R64, MODRM_REG)];
  (* add_rex_r8_rm8:173 *) T "add" 0 [2] [REX; SLASHR] [(R8, MODRM_REG); (RM8, MODRM_RM)];
  (* add_r8_rm8:172 *) T "add" 0 [2] [SLASHR] [(R8, MODRM_REG); (RM8, MODRM_RM)];
  (* add_r16_rm16:174 *) T "add" 102 [3] [SLASHR] [(R16, MODRM_REG); (RM16, MODRM_RM)];
  (* add_r32_rm32:175 *) T "add" 0 [3] [SLASHR] [(R32, MODRM_REG); (RM32, MODRM_RM)];
  (* add_r64_rm64:176 *) T "add" 0 [3] [REX_W; SLASHR] [(R64, MODRM_REG); (RM64, MODRM_RM)];
  (* sub_rex_rm8_imm8:180 *) T "sub" 0 [128] [REX; SLASH5; IMM_BYTE] [(RM8, MODRM_RM); (IMM8, IMM)];
  (* sub_rm8_imm8:179 *) T "sub" 0 [128] [SLASH5; IMM_BYTE] [(RM8, MODRM_RM); (IMM8, IMM)];
  (* sub_rm16_imm16:181 *) T "sub" 102 [129] [SLASH5; IMM_WORD] [(RM16, MODRM_RM); (IMM16, IMM)];
  (* sub_rm32_imm32:182 *) T "sub" 0 [129] [SLASH5; IMM_DWORD] [(RM32, MODRM_RM); (IMM32, IMM)];
  (* sub_rm64_imm32:183 *) T "sub" 0 [129] [REX_W; SLASH5; IMM_DWORD] [(RM64, MODRM_RM); (IMM32, IMM)];
  (* sub_rex_rm8_r8:185 *) T "sub" 0 [40] [REX; SLASHR] [(RM8, MODRM_RM); (R8, MODRM_REG)];
  (* sub_rm8_r8:184 *) T "sub" 0 [40] [SLASHR] [(RM8, MODRM_RM); (R8, MODRM_REG)];
  (* sub_rm16_r16:186 *) T "sub" 102 [41] [SLASHR] [(RM16, MODRM_RM); (R16, MODRM_REG)];
  (* sub_rm32_r32:187 *) T "sub" 0 [41] [SLASHR] [(RM32, MODRM_RM); (R32, MODRM_REG)];
  (* sub_rm64_r64:188 *) T "sub" 0 [41] [REX_W; SLASHR] [(RM64, MODRM_RM); (R64, MODRM_REG)];
  (* sub_rex_r8_rm8:190 *) T "sub" 0 [42] [REX; SLASHR] [(R8, MODRM_REG); (RM8, MODRM_RM)];
  (* sub_r8_rm8:189 *) T "sub" 0 [42] [SLASHR] [(R8, MODRM_REG); (RM8, MODRM_RM)];
  (* sub_r16_rm16:191 *) T "sub" 102 [43] [SLASHR] [(R16, MODRM_REG); (RM16, MODRM_RM)];
  (* sub_r32_rm32:192 *) T "sub" 0 [43] [SLASHR] [(R32, MODRM_REG); (RM32, MODRM_RM)];
  (* sub_r64_rm64:193 *) T "sub" 0 [43] [REX_W; SLASHR] [(R64, MODRM_REG); (RM64, MODRM_RM)];
  (* idiv_rex_rm8:76 *) T "idiv" 0 [246] [REX; SLASH7] [(RM8, MODRM_RM)];
  (* idiv_rm8:73 *) T "idiv" 0 [246] [SLASH7] [(RM8, MODRM_RM)];
  (* idiv_rm16:79 *) T "idiv" 102 [247] [SLASH7] [(RM16, MODRM_RM)];
  (* idiv_rm32:82 *) T "idiv" 0 [247] [SLASH7] [(RM32, MODRM_RM)];
  (* idiv_rm64:85 *) T "idiv" 0 [247] [REX_W; SLASH7] [(RM64, MODRM_RM)];
  (* div_rex_rm8:92 *) T "div" 0 [246] [REX; SLASH6] [(RM8, MODRM_RM)];
  (* div_rm8:89 *) T "div" 0 [246] [SLASH6] [(RM8, MODRM_RM)];
  (* div_rm16:95 *) T "div" 102 [247] [SLASH6] [(RM16, MODRM_RM)];
  (* div_rm32:98 *) T "div" 0 [247] [SLASH6] [(RM32, MODRM_RM)];
  (* div_rm64:101 *) T "div" 0 [247] [REX_W; SLASH6] [(RM64, MODRM_RM)];
  (* imul_rm8:106 *) T "imul" 0 [246] [SLASH5] [(RM8, MODRM_RM)];
  (* imul_rm16:109 *) T "imul" 102 [247] [SLASH5] [(RM16, MODRM_RM)];
  (* imul_rm32:112 *) T "imul" 0 [247] [SLASH5] [(RM32, MODRM_RM)];
  (* imul_rm64:115 *) T "imul" 0 [247] [REX_W; SLASH5] [(RM64, MODRM_RM)];
  (* imul_r16_rm16:124 *) T "imul" 102 [15; 175] [SLASHR] [(R16, MODRM_REG); (RM16, MODRM_RM)];
  (* imul_r32_rm32:125 *) T "imul" 0 [15; 175] [SLASHR] [(R32, MODRM_REG); (RM32, MODRM_RM)];
  (* imul_r64_rm64:126 *) T "imul" 0 [15; 175] [REX_W; SLASHR] [(R64, MODRM_REG); (RM64, MODRM_RM)];
  (* imul_r16_rm16_imm8:132 *) T "imul" 102 [107] [SLASHR; IMM_BYTE] [(R16, MODRM_REG); (RM16, MODRM_RM); (IMM8, IMM)];
  (* imul_r32_rm32_imm8:133 *) T "imul" 0 [107] [SLASHR; IMM_BYTE] [(R32, MODRM_REG); (RM32, MODRM_RM); (IMM8, IMM)];
  (* imul_r64_rm64_imm8:134 *) T "imul" 0 [107] [REX_W; SLASHR; IMM_BYTE] [(R64, MODRM_REG); (RM64, MODRM_RM); (IMM8, IMM)];
  (* imul_r16_rm16_imm16:139 *) T "imul" 102 [105] [SLASHR; IMM_WORD] [(R16, MODRM_REG); (RM16, MODRM_RM); (IMM16, IMM)];
  (* imul_r32_rm32_imm32:140 *) T "imul" 0 [105] [SLASHR; IMM_DWORD] [(R32, MODRM_REG); (RM32, MODRM_RM); (IMM32, IMM)];
  (* imul_r64_rm64_imm32:141 *) T "imul" 0 [105] [REX_W; SLASHR; IMM_DWORD] [(R64, MODRM_REG); (RM64, MODRM_RM); (IMM32, IMM)];
  (* mul_rex_rm8:148 *) T "mul" 0 [246] [REX; SLASH4] [(RM8, MODRM_RM)];
  (* mul_rm8:145 *) T "mul" 0 [246] [SLASH4] [(RM8, MODRM_RM)];
  (* mul_rm16:151 *) T "mul" 102 [247] [SLASH4] [(RM16, MODRM_RM)];
  (* mul_rm32:154 *) T "mul" 0 [247] [SLASH4] [(RM32, MODRM_RM)];
  (* mul_rm64:157 *) T "mul" 0 [247] [REX_W; SLASH4] [(RM64, MODRM_RM)];
  (* mov_rex_rm8_r8:201 *) T "mov" 0 [136] [REX; SLASHR] [(RM8, MODRM_RM); (R8, MODRM_REG)];
  (* mov_rm8_r8:197 *) T "mov" 0 [136] [SLASHR] [(RM8, MODRM_RM); (R8, MODRM_REG)];
  (* mov_rm16_r16:205 *) T "mov" 102 [137] [SLASHR] [(RM16, MODRM_RM); (R16, MODRM_REG)];
  (* mov_rm32_r32:206 *) T "mov" 0 [137] [SLASHR] [(RM32, MODRM_RM); (R32, MODRM_REG)];
  (* mov_rm64_r64:207 *) T "mov" 0 [137] [REX_W; SLASHR] [(RM64, MODRM_RM); (R64, MODRM_REG)];
  (* mov_rex_r8_rm8:212 *) T "mov" 0 [138] [REX; SLASHR] [(R8, MODRM_REG); (RM8, MODRM_RM)];
  (* mov_r8_rm8:210 *) T "mov" 0 [138] [SLASHR] [(R8, MODRM_REG); (RM8, MODRM_RM)];
  (* mov_r16_rm16:214 *) T "mov" 102 [139] [SLASHR] [(R16, MODRM_REG); (RM16, MODRM_RM)];
  (* mov_r64_rm64:217 *) T "mov" 0 [139] [REX_W; SLASHR] [(R64, MODRM_REG); (RM64, MODRM_RM)];
  (* mov_r32_rm32:216 *) T "mov" 0 [139] [SLASHR] [(R32, MODRM_REG); (RM32, MODRM_RM)];
  (* mov_r64_seg:220 *) T "mov" 0 [139] [REX_W; SLASHR] [(R64, MODRM_REG); (SEG64, MODRM_RM)];
  (* mov_rex_r8_imm8:224 *) T "mov" 0 [176] [REX; IMM_BYTE] [(R8, OPCODE_PLUS); (IMM8, IMM)];
  (* mov_r8_imm8:223 *) T "mov" 0 [176] [IMM_BYTE] [(R8, OPCODE_PLUS); (IMM8, IMM)];
  (* mov_r16_imm16:225 *) T "mov" 102 [184] [IMM_WORD] [(R16, OPCODE_PLUS); (IMM16, IMM)];
  (* mov_r32_imm32:226 *) T "mov" 0 [184] [IMM_DWORD] [(R32, OPCODE_PLUS); (IMM32, IMM)];
  (* mov_r64_imm64:228 *) T "mov" 0 [184] [REX_W; IMM_QWORD] [(R64, OPCODE_PLUS); (IMM64, IMM)];
  (* mov_rex_rm8_imm8:233 *) T "mov" 0 [198] [REX; SLASH0; IMM_BYTE] [(RM8, MODRM_RM); (IMM8, IMM)];
  (* mov_rm8_imm8:232 *) T "mov" 0 [198] [SLASH0; IMM_BYTE] [(RM8, MODRM_RM); (IMM8, IMM)];
  (* mov_rm16_imm16:235 *) T "mov" 102 [199] [SLASH0; IMM_WORD] [(RM16, MODRM_RM); (IMM16, IMM)];
  (* mov_rm32_imm32:237 *) T "mov" 0 [199] [SLASH0; IMM_DWORD] [(RM32, MODRM_RM); (IMM32, IMM)];
  (* mov_rm64_imm32:239 *) T "mov" 0 [199] [REX_W; SLASH0; IMM_DWORD] [(RM64, MODRM_RM); (IMM32, IMM)];
  (* cmp_rex_rm8_imm8:262 *) T "cmp" 0 [128] [REX; SLASH7; IMM_BYTE] [(RM8, MODRM_RM); (IMM8, IMM)];
  (* cmp_rm8_imm8:261 *) T "cmp" 0 [128] [SLASH7; IMM_BYTE] [(RM8, MODRM_RM); (IMM8, IMM)];
  (* cmp_rm16_imm16:263 *) T "cmp" 102 [129] [SLASH7; IMM_WORD] [(RM16, MODRM_RM); (IMM16, IMM)];
  (* cmp_rm32_imm32:264 *) T "cmp" 0 [129] [SLASH7; IMM_DWORD] [(RM32, MODRM_RM); (IMM32, IMM)];
  (* cmp_rm64_imm32:265 *) T "cmp" 0 [129] [REX_W; SLASH7; IMM_DWORD] [(RM64, MODRM_RM); (IMM32, IMM)];
  (* cmp_rex_rm8_r8:267 *) T "cmp" 0 [56] [REX; SLASHR] [(RM8, MODRM_RM); (R8, MODRM_REG)];
  (* cmp_rm8_r8:266 *) T "cmp" 0 [56] [SLASHR] [(RM8, MODRM_RM); (R8, MODRM_REG)];
  (* cmp_rm16_r16:268 *) T "cmp" 102 [57] [SLASHR] [(RM16, MODRM_RM); (R16, MODRM_REG)];
  (* cmp_rm32_r32:269 *) T "cmp" 0 [57] [SLASHR] [(RM32, MODRM_RM); (R32, MODRM_REG)];
  (* cmp_rm64_r64:270 *) T "cmp" 0 [57] [REX_W; SLASHR] [(RM64, MODRM_RM); (R64, MODRM_REG)];
  (* cmp_rex_r8_rm8:273 *) T "cmp" 0 [58] [REX; SLASHR] [(R8, MODRM_REG); (RM8, MODRM_RM)];
  (* cmp_r8_rm8:272 *) T "cmp" 0 [58] [SLASHR] [(R8, MODRM_REG); (RM8, MODRM_RM)];
  (* cmp_r16_rm16:274 *) T "cmp" 102 [59] [SLASHR] [(R16, MODRM_REG); (RM16, MODRM_RM)];
  (* cmp_r32_rm32:275 *) T "cmp" 0 [59] [SLASHR] [(R32, MODRM_REG); (RM32, MODRM_RM)];
  (* cmp_r64_rm64:276 *) T "cmp" 0 [59] [REX_W; SLASHR] [(R64, MODRM_REG); (RM64, MODRM_RM)];
  (* test_rex_rm8_r8:280 *) T "test" 0 [132] [REX; SLASHR] [(RM8, MODRM_RM); (R8, MODRM_REG)];
  (* test_rm8_r8:279 *) T "test" 0 [132] [SLASHR] [(RM8, MODRM_RM); (R8, MODRM_REG)];
  (* test_rm16_r16:281 *) T "test" 102 [133] [SLASHR] [(RM16, MODRM_RM); (R16, MODRM_REG)];
  (* test_rm32_r32:282 *) T "test" 0 [133] [SLASHR] [(RM32, MODRM_RM); (R32, MODRM_REG)];
  (* test_rm64_r64:283 *) T "test" 0 [133] [REX_W; SLASHR] [(RM64, MODRM_RM); (R64, MODRM_REG)];
  (* seta_rex_rm8:317 *) T "seta" 0 [15; 151] [REX] [(RM8, MODRM_RM)];
  (* setae_rex_rm8:318 *) T "setae" 0 [15; 147] [REX] [(RM8, MODRM_RM)];
  (* setb_rex_rm8:319 *) T "setb" 0 [15; 146] [REX] [(RM8, MODRM_RM)];
  (* setbe_rex_rm8:320 *) T "setbe" 0 [15; 150] [REX] [(RM8, MODRM_RM)];
  (* setg_rex_rm8:321 *) T "setg" 0 [15; 159] [REX] [(RM8, MODRM_RM)];
  (* setge_rex_rm8:322 *) T "setge" 0 [15; 157] [REX] [(RM8, MODRM_RM)];
  (* setl_rex_rm8:323 *) T "setl" 0 [15; 156] [REX] [(RM8, MODRM_RM)];
  (* setle_rex_rm8:324 *) T "setle" 0 [15; 158] [REX] [(RM8, MODRM_RM)];
  (* sete_rex_rm8:325 *) T "sete" 0 [15; 148] [REX] [(RM8, MODRM_RM)];
  (* setne_rex_rm8:326 *) T "setne" 0 [15; 149] [REX] [(RM8, MODRM_RM)];
  (* seta_rm8:286 *) T "seta" 0 [15; 151] [] [(RM8, MODRM_RM)];
  (* setae_rm8:287 *) T "setae" 0 [15; 147] [] [(RM8, MODRM_RM)];
  (* cvtsi2ss_xmm_rm32:289 *) T "cvtsi2ss" 243 [15; 42] [SLASHR] [(XMM1S32, MODRM_REG); (RM32, MODRM_RM)];
  (* cvtsi2ss_xmm_rm64:291 *) T "cvtsi2ss" 243 [15; 42] [REX_W; SLASHR] [(XMM1S32, MODRM_REG); (RM64, MODRM_RM)];
  (* cvtsi2sd_xmm_rm32:293 *) T "cvtsi2sd" 242 [15; 42] [SLASHR] [(XMM1S64, MODRM_REG); (RM32, MODRM_RM)];
  (* cvtsi2sd_xmm_rm64:295 *) T "cvtsi2sd" 242 [15; 42] [REX_W; SLASHR] [(XMM1S64, MODRM_REG); (RM64, MODRM_RM)];
  (* cvttss2si_r32_xmm:297 *) T "cvttss2si" 243 [15; 44] [SLASHR] [(R32, MODRM_REG); (XMM2S32, MODRM_RM)];
  (* cvttss2si_r64_xmm:299 *) T "cvttss2si" 243 [15; 44] [REX_W; SLASHR] [(R64, MODRM_REG); (XMM2S32, MODRM_RM)];
  (* cvttsd2si_r32_xmm:301 *) T "cvttsd2si" 242 [15; 44] [SLASHR] [(R32, MODRM_REG); (XMM2S64, MODRM_RM)];
  (* cvttsd2si_r64_xmm:303 *) T "cvttsd2si" 242 [15; 44] [REX_W; SLASHR] [(R64, MODRM_REG); (XMM2S64, MODRM_RM)];
  (* cvtss2sd_xmm_xmm:305 *) T "cvtss2sd" 243 [15; 90] [SLASHR] [(XMM1S64, MODRM_REG); (XMM2S32, MODRM_RM)];
  (* cvtsd2ss_xmm_xmm:307 *) T "cvtsd2ss" 242 [15; 90] [SLASHR] [(XMM1S32, MODRM_REG); (XMM2S64, MODRM_RM)];
  (* setb_rm8:308 *) T "setb" 0 [15; 146] [] [(RM8, MODRM_RM)];
  (* setbe_rm8:309 *) T "setbe" 0 [15; 150] [] [(RM8, MODRM_RM)];
  (* setg_rm8:310 *) T "setg" 0 [15; 159] [] [(RM8, MODRM_RM)];
  (* setge_rm8:311 *) T "setge" 0 [15; 157] [] [(RM8, MODRM_RM)];
  (* setl_rm8:312 *) T "setl" 0 [15; 156] [] [(RM8, MODRM_RM)];
  (* setle_rm8:313 *) T "setle" 0 [15; 158] [] [(RM8, MODRM_RM)];
  (* sete_rm8:314 *) T "sete" 0 [15; 148] [] [(RM8, MODRM_RM)];
  (* setne_rm8:315 *) T "setne" 0 [15; 149] [] [(RM8, MODRM_RM)];
  (* neg_rex_rm8:331 *) T "neg" 0 [246] [REX; SLASH3] [(RM8, MODRM_RM)];
  (* neg_rm8:330 *) T "neg" 0 [246] [SLASH3] [(RM8, MODRM_RM)];
  (* neg_rm16:332 *) T "neg" 102 [247] [SLASH3] [(RM16, MODRM_RM)];
  (* neg_rm32:333 *) T "neg" 0 [247] [SLASH3] [(RM32, MODRM_RM)];
  (* neg_rm64:334 *) T "neg" 0 [247] [REX_W; SLASH3] [(RM64, MODRM_RM)];
  (* not_rex_rm8:338 *) T "not" 0 [246] [REX; SLASH2] [(RM8, MODRM_RM)];
  (* not_rm8:337 *) T "not" 0 [246] [SLASH2] [(RM8, MODRM_RM)];
  (* not_rm16:339 *) T "not" 102 [247] [SLASH2] [(RM16, MODRM_RM)];
  (* not_rm32:340 *) T "not" 0 [247] [SLASH2] [(RM32, MODRM_RM)];
  (* not_rm64:341 *) T "not" 0 [247] [REX_W; SLASH2] [(RM64, MODRM_RM)];
  (* inc_rex_rm8:345 *) T "inc" 0 [254] [REX; SLASH0] [(RM8, MODRM_RM)];
  (* inc_rm8:344 *) T "inc" 0 [254] [SLASH0] [(RM8, MODRM_RM)];
  (* inc_rm16:346 *) T "inc" 102 [255] [SLASH0] [(RM16, MODRM_RM)];
  (* inc_rm32:347 *) T "inc" 0 [255] [SLASH0] [(RM32, MODRM_RM)];
  (* inc_rm64:348 *) T "inc" 0 [255] [REX_W; SLASH0] [(RM64, MODRM_RM)];
  (* dec_rex_rm8:352 *) T "dec" 0 [254] [REX; SLASH1] [(RM8, MODRM_RM)];
  (* dec_rm8:351 *) T "dec" 0 [254] [SLASH1] [(RM8, MODRM_RM)];
  (* dec_rm16:353 *) T "dec" 102 [255] [SLASH1] [(RM16, MODRM_RM)];
  (* dec_rm32:354 *) T "dec" 0 [255] [SLASH1] [(RM32, MODRM_RM)];
  (* dec_rm64:355 *) T "dec" 0 [255] [REX_W; SLASH1] [(RM64, MODRM_RM)];
  (* xor_rex_rm8_imm8:359 *) T "xor" 0 [128] [REX; SLASH6; IMM_BYTE] [(RM8, MODRM_RM); (IMM8, IMM)];
  (* xor_rm8_imm8:358 *) T "xor" 0 [128] [SLASH6; IMM_BYTE] [(RM8, MODRM_RM); (IMM8, IMM)];
  (* xor_rm16_imm16:360 *) T "xor" 102 [129] [SLASH6; IMM_WORD] [(RM16, MODRM_RM); (IMM16, IMM)];
  (* xor_rm32_imm32:361 *) T "xor" 0 [129] [SLASH6; IMM_DWORD] [(RM32, MODRM_RM); (IMM32, IMM)];
  (* xor_rm64_imm32:362 *) T "xor" 0 [129] [REX_W; SLASH6; IMM_DWORD] [(RM64, MODRM_RM); (IMM32, IMM)];
  (* xor_rex_rm8_r8:364 *) T "xor" 0 [48] [REX; SLASHR] [(RM8, MODRM_RM); (R8, MODRM_REG)];
  (* xor_rm8_r8:363 *) T "xor" 0 [48] [SLASHR] [(RM8, MODRM_RM); (R8, MODRM_REG)];
  (* xor_rm16_r16:365 *) T "xor" 102 [49] [SLASHR] [(RM16, MODRM_RM); (R16, MODRM_REG)];
  (* xor_rm32_r32:366 *) T "xor" 0 [49] [SLASHR] [(RM32, MODRM_RM); (R32, MODRM_REG)];
  (* xor_rm64_r64:367 *) T "xor" 0 [49] [REX_W; SLASHR] [(RM64, MODRM_RM); (R64, MODRM_REG)];
  (* xor_rex_r8_rm8:369 *) T "xor" 0 [50] [REX; SLASHR] [(R8, MODRM_REG); (RM8, MODRM_RM)];
  (* xor_r8_rm8:368 *) T "xor" 0 [50] [SLASHR] [(R8, MODRM_REG); (RM8, MODRM_RM)];
  (* xor_r16_rm16:370 *) T "xor" 102 [51] [SLASHR] [(R16, MODRM_REG); (RM16, MODRM_RM)];
  (* xor_r32_rm32:371 *) T "xor" 0 [51] [SLASHR] [(R32, MODRM_REG); (RM32, MODRM_RM)];
  (* xor_r64_rm64:372 *) T "xor" 0 [51] [REX_W; SLASHR] [(R64, MODRM_REG); (RM64, MODRM_RM)];
  (* or_rex_rm8_imm8:376 *) T "or" 0 [128] [REX; SLASH1; IMM_BYTE] [(RM8, MODRM_RM); (IMM8, IMM)];
  (* or_rm8_imm8:375 *) T "or" 0 [128] [SLASH1; IMM_BYTE] [(RM8, MODRM_RM); (IMM8, IMM)];
  (* or_rm16_imm16:377 *) T "or" 102 [129] [SLASH1; IMM_WORD] [(RM16, MODRM_RM); (IMM16, IMM)];
  (* or_rm32_imm32:378 *) T "or" 0 [129] [SLASH1; IMM_DWORD] [(RM32, MODRM_RM); (IMM32, IMM)];
  (* or_rm64_imm32:379 *) T "or" 0 [129] [REX_W; SLASH1; IMM_DWORD] [(RM64, MODRM_RM); (IMM32, IMM)];
  (* or_rex_rm8_r8:381 *) T "or" 0 [8] [REX; SLASHR] [(RM8, MODRM_RM); (R8, MODRM_REG)];
  (* or_rm8_r8:380 *) T "or" 0 [8] [SLASHR] [(RM8, MODRM_RM); (R8, MODRM_REG)];
  (* or_rm16_r16:382 *) T "or" 102 [9] [SLASHR] [(RM16, MODRM_RM); (R16, MODRM_REG)];
  (* or_rm32_r32:383 *) T "or" 0 [9] [SLASHR] [(RM32, MODRM_RM); (R32, MODRM_REG)];
  (* or_rm64_r64:384 *) T "or" 0 [9] [REX_W; SLASHR] [(RM64, MODRM_RM); (R64, MODRM_REG)];
  (* or_r8_rm8:385 *) T "or" 0 [10] [SLASHR] [(R8, MODRM_REG); (RM8, MODRM_RM)];
  (* or_rex_r8_rm8:386 *) T "or" 0 [10] [REX; SLASHR] [(R8, MODRM_REG); (RM8, MODRM_RM)];
  (* or_r16_rm16:387 *) T "or" 102 [11] [SLASHR] [(R16, MODRM_REG); (RM16, MODRM_RM)];
  (* or_r32_rm32:388 *) T "or" 0 [11] [SLASHR] [(R32, MODRM_REG); (RM32, MODRM_RM)];
  (* or_r64_rm64:389 *) T "or" 0 [11] [REX_W; SLASHR] [(R64, MODRM_REG); (RM64, MODRM_RM)];
  (* and_rex_rm8_imm8:393 *) T "and" 0 [128] [REX; SLASH4; IMM_BYTE] [(RM8, MODRM_RM); (IMM8, IMM)];
  (* and_rm8_imm8:392 *) T "and" 0 [128] [SLASH4; IMM_BYTE] [(RM8, MODRM_RM); (IMM8, IMM)];
  (* and_rm16_imm16:394 *) T "and" 102 [129] [SLASH4; IMM_WORD] [(RM16, MODRM_RM); (IMM16, IMM)];
  (* and_rm32_imm32:395 *) T "and" 0 [129] [SLASH4; IMM_DWORD] [(RM32, MODRM_RM); (IMM32, IMM)];
  (* and_rm64_imm32:396 *) T "and" 0 [129] [REX_W; SLASH4; IMM_DWORD] [(RM64, MODRM_RM); (IMM32, IMM)];
  (* and_rex_rm8_r8:398 *) T "and" 0 [32] [REX; SLASHR] [(RM8, MODRM_RM); (R8, MODRM_REG)];
  (* and_rm8_r8:397 *) T "and" 0 [32] [SLASHR] [(RM8, MODRM_RM); (R8, MODRM_REG)];
  (* and_rm16_r16:399 *) T "and" 102 [33] [SLASHR] [(RM16, MODRM_RM); (R16, MODRM_REG)];
  (* and_rm32_r32:400 *) T "and" 0 [33] [SLASHR] [(RM32, MODRM_RM); (R32, MODRM_REG)];
  (* and_rm64_r64:401 *) T "and" 0 [33] [REX_W; SLASHR] [(RM64, MODRM_RM); (R64, MODRM_REG)];
  (* and_rex_r8_rm8:403 *) T "and" 0 [34] [REX; SLASHR] [(R8, MODRM_REG); (RM8, MODRM_RM)];
  (* and_r8_rm8:402 *) T "and" 0 [34] [SLASHR] [(R8, MODRM_REG); (RM8, MODRM_RM)];
  (* and_r16_rm16:404 *) T "and" 102 [35] [SLASHR] [(R16, MODRM_REG); (RM16, MODRM_RM)];
  (* and_r32_rm32:405 *) T "and" 0 [35] [SLASHR] [(R32, MODRM_REG); (RM32, MODRM_RM)];
  (* and_r64_rm64:406 *) T "and" 0 [35] [REX_W; SLASHR] [(R64, MODRM_REG); (RM64, MODRM_RM)];
  (* sal_rex_rm8_cl:410 *) T "sal" 0 [210] [REX; SLASH4] [(RM8, MODRM_RM); (R8, MODRM_REG)];
  (* sal_rm8_cl:409 *) T "sal" 0 [210] [SLASH4] [(RM8, MODRM_RM); (R8, MODRM_REG)];
  (* sal_rm16_cl:411 *) T "sal" 102 [211] [SLASH4] [(RM16, MODRM_RM); (R8, MODRM_REG)];
  (* sal_rm32_cl:412 *) T "sal" 0 [211] [SLASH4] [(RM32, MODRM_RM); (R8, MODRM_REG)];
  (* sal_rm64_cl:413 *) T "sal" 0 [211] [REX_W; SLASH4] [(RM64, MODRM_RM); (R8, MODRM_REG)];
  (* sar_rex_rm8_cl:416 *) T "sar" 0 [210] [REX; SLASH7] [(RM8, MODRM_RM); (R8, MODRM_REG)];
  (* sar_rm8_cl:415 *) T "sar" 0 [210] [SLASH7] [(RM8, MODRM_RM); (R8, MODRM_REG)];
  (* sar_rm16_cl:417 *) T "sar" 102 [211] [SLASH7] [(RM16, MODRM_RM); (R8, MODRM_REG)];
  (* sar_rm32_cl:418 *) T "sar" 0 [211] [SLASH7] [(RM32, MODRM_RM); (R8, MODRM_REG)];
  (* sar_rm64_cl:419 *) T "sar" 0 [211] [REX_W; SLASH7] [(RM64, MODRM_RM); (R8, MODRM_REG)];
  (* shr_rex_rm8_cl:423 *) T "shr" 0 [210] [REX; SLASH5] [(RM8, MODRM_RM); (R8, MODRM_REG)];
  (* shr_rm8_cl:422 *) T "shr" 0 [210] [SLASH5] [(RM8, MODRM_RM); (R8, MODRM_REG)];
  (* shr_rm16_cl:424 *) T "shr" 102 [211] [SLASH5] [(RM16, MODRM_RM); (R8, MODRM_REG)];
  (* shr_rm32_cl:425 *) T "shr" 0 [211] [SLASH5] [(RM32, MODRM_RM); (R8, MODRM_REG)];
  (* shr_rm64_cl:426 *) T "shr" 0 [211] [REX_W; SLASH5] [(RM64, MODRM_RM); (R8, MODRM_REG)];
  (* shr_rex_rm8_imm8:429 *) T "shr" 0 [192] [REX; SLASH5; IMM_BYTE] [(RM8, MODRM_RM); (IMM8, IMM)];
  (* shr_rm8_imm8:428 *) T "shr" 0 [192] [SLASH5; IMM_BYTE] [(RM8, MODRM_RM); (IMM8, IMM)];
  (* shr_rm16_imm8:430 *) T "shr" 102 [193] [SLASH5; IMM_BYTE] [(RM16, MODRM_RM); (IMM8, IMM)];
  (* shr_rm32_imm8:431 *) T "shr" 0 [193] [SLASH5; IMM_BYTE] [(RM32, MODRM_RM); (IMM8, IMM)];
  (* shr_rm64_imm8:432 *) T "shr" 0 [193] [REX_W; SLASH5; IMM_BYTE] [(RM64, MODRM_RM); (IMM8, IMM)];
  (* movaps_xmm1_xmm2:445 *) T "mov" 0 [15; 40] [SLASHR] [(XMM1S64, MODRM_REG); (XMM2S64, MODRM_RM)];
  (* movaps_xmm1_xmm2_f32:446 *) T "mov" 0 [15; 40] [SLASHR] [(XMM1S32, MODRM_REG); (XMM2S32, MODRM_RM)];
  (* movaps_xmm2_xmm1:448 *) T "mov" 0 [15; 41] [SLASHR] [(XMM2S64, MODRM_RM); (XMM1S64, MODRM_REG)];
  (* movaps_xmm2_xmm1_f32:449 *) T "mov" 0 [15; 41] [SLASHR] [(XMM2S32, MODRM_RM); (XMM1S32, MODRM_REG)];
  (* movxmm128_load:453 *) T "movxmm128" 0 [15; 16] [SLASHR] [(XMM1S64, MODRM_REG); (M, MODRM_RM)];
  (* movxmm128_store:461 *) T "movxmm128" 0 [15; 17] [SLASHR] [(M, MODRM_RM); (XMM1S64, MODRM_REG)];
  (* movsd_xmm1_m64:471 *) T "mov" 242 [15; 16] [SLASHR] [(XMM1S64, MODRM_REG); (M64, MODRM_RM)];
  (* movsd_xmm1_xmm2:470 *) T "mov" 242 [15; 16] [SLASHR] [(XMM1S64, MODRM_REG); (XMM2S64, MODRM_RM)];
  (* movsd_xmm1m64_xmm2:472 *) T "mov" 242 [15; 17] [SLASHR] [(XMM1M64, MODRM_RM); (XMM2S64, MODRM_REG)];
  (* movss_xmm1_xmm2:473 *) T "mov" 243 [15; 16] [SLASHR] [(XMM1S32, MODRM_REG); (XMM2S32, MODRM_RM)];
  (* movss_xmm1_m32:474 *) T "mov" 243 [15; 16] [SLASHR] [(XMM1S32, MODRM_REG); (M32, MODRM_RM)];
  (* movss_xmm2m32_xmm1:475 *) T "mov" 243 [15; 17] [SLASHR] [(XMM2M32, MODRM_RM); (XMM1S32, MODRM_REG)];
  (* xorps_xmm1_xmm2m128:438 *) T "xor" 0 [15; 87] [SLASHR] [(XMM1S32, MODRM_REG); (XMM2M32, MODRM_RM)];
  (* xorpd_xmm1_xmm2m128:437 *) T "xor" 0 [102; 15; 87] [SLASHR] [(XMM1S64, MODRM_REG); (XMM2M64, MODRM_RM)];
  (* addss_xmm1_xmm2m32:479 *) T "add" 243 [15; 88] [SLASHR] [(XMM1S32, MODRM_REG); (XMM2M32, MODRM_RM)];
  (* addsd_xmm1_xmm2m64:478 *) T "add" 242 [15; 88] [SLASHR] [(XMM1S64, MODRM_REG); (XMM2M64, MODRM_RM)];
  (* subss_xmm1_xmm2m32:481 *) T "sub" 243 [15; 92] [SLASHR] [(XMM1S32, MODRM_REG); (XMM2M32, MODRM_RM)];
  (* subsd_xmm1_xmm2m64:480 *) T "sub" 242 [15; 92] [SLASHR] [(XMM1S64, MODRM_REG); (XMM2M64, MODRM_RM)];
  (* mulss_xmm1_xmm2m32:483 *) T "fmul" 243 [15; 89] [SLASHR] [(XMM1S32, MODRM_REG); (XMM2M32, MODRM_RM)];
  (* mulsd_xmm1_xmm2m64:482 *) T "fmul" 242 [15; 89] [SLASHR] [(XMM1S64, MODRM_REG); (XMM2M64, MODRM_RM)];
  (* divss_xmm1_xmm2m32:486 *) T "fdiv" 243 [15; 94] [SLASHR] [(XMM1S32, MODRM_REG); (XMM2M32, MODRM_RM)];
  (* divsd_xmm1_xmm2m64:484 *) T "fdiv" 242 [15; 94] [SLASHR] [(XMM1S64, MODRM_REG); (XMM2M64, MODRM_RM)];
  (* comiss:488 *) T "cmp" 0 [15; 47] [SLASHR] [(XMM1S32, MODRM_REG); (XMM2M32, MODRM_RM)];
  (* comisd:487 *) T "cmp" 102 [15; 47] [SLASHR] [(XMM1S64, MODRM_REG); (XMM2M64, MODRM_RM)];
  (* movsx_r16_rm8:492 *) T "movsx" 102 [15; 190] [SLASHR] [(R16, MODRM_REG); (RM8, MODRM_RM)];
  (* movsx_r32_rm8:494 *) T "movsx" 0 [15; 190] [SLASHR] [(R32, MODRM_REG); (RM8, MODRM_RM)];
  (* movsx_r64_rm8:496 *) T "movsx" 0 [15; 190] [REX_W; SLASHR] [(R64, MODRM_REG); (RM8, MODRM_RM)];
  (* movsx_r32_rm16:498 *) T "movsx" 0 [15; 191] [SLASHR] [(R32, MODRM_REG); (RM16, MODRM_RM)];
  (* movsx_r64_rm16:500 *) T "movsx" 0 [15; 191] [REX_W; SLASHR] [(R64, MODRM_REG); (RM16, MODRM_RM)];
  (* movsx_r64_rm32:502 *) T "movsx" 0 [99] [REX_W; SLASHR] [(R64, MODRM_REG); (RM32, MODRM_RM)];
  (* movzx_r16_rm8:505 *) T "movzx" 102 [15; 182] [SLASHR] [(R16, MODRM_REG); (RM8, MODRM_RM)];
  (* movzx_r32_rm8:507 *) T "movzx" 0 [15; 182] [SLASHR] [(R32, MODRM_REG); (RM8, MODRM_RM)];
  (* movzx_r64_rm8:509 *) T "movzx" 0 [15; 182] [REX_W; SLASHR] [(R64, MODRM_REG); (RM8, MODRM_RM)];
  (* movzx_r32_rm16:511 *) T "movzx" 0 [15; 183] [SLASHR] [(R32, MODRM_REG); (RM16, MODRM_RM)];
  (* movzx_r64_rm16:513 *) T "movzx" 0 [15; 183] [REX_W; SLASHR] [(R64, MODRM_REG); (RM16, MODRM_RM)];
  (* movzx_r64_rm32:522 *) T "movzx" 0 [139] [SLASHR] [(R64, MODRM_REG); (RM32, MODRM_RM)]
].
Local Close Scope string_scope.

(** ** Choosing an entry *)

(** operand_low_to_high, opcode.c 896-1153: the keys an operand type accepts *)
Definition low_to_high (l : low) : list key :=
  match l with
  | REL8 => [(KUINT8, 1)]
  | REL32 => [(KUINT32, 4)]
  | RM8 => [(KREG, 1); (KINDIRECT, 1); (KDISP, 1); (KRIP, 1); (KSIB, 1)]
  | RM16 => [(KREG, 2); (KINDIRECT, 2); (KDISP, 2); (KRIP, 2); (KSIB, 2)]
  | RM32 => [(KREG, 4); (KINDIRECT, 4); (KDISP, 4); (KRIP, 4); (KSIB, 4)]
  | RM64 => [(KREG, 8); (KINDIRECT, 8); (KDISP, 8); (KRIP, 8); (KSIB, 8)]
  | SEG64 => [(KSEG, 8)]
  | M => [(KINDIRECT, 8); (KSIB, 8); (KDISP, 8); (KRIP, 8)]
  | M32 => [(KINDIRECT, 4); (KDISP, 4); (KRIP, 4); (KSIB, 4)]
  | M64 => [(KINDIRECT, 8); (KDISP, 8); (KSIB, 8); (KRIP, 8)]
  | IMM8 => [(KUINT8, 1)]
  | IMM16 => [(KUINT16, 2)]
  | IMM32 => [(KUINT32, 4); (KUINT, 8)]
  | IMM64 => [(KUINT64, 8)]
  | R8 => [(KREG, 1)]
  | R16 => [(KREG, 2)]
  | R32 => [(KREG, 4)]
  | R64 => [(KREG, 8)]
  | XMM1S64 | XMM2S64 => [(KFREG, 8)]
  | XMM1S32 | XMM2S32 => [(KFREG, 4)]
  | XMM1M64 | XMM2M64 =>
      [(KFREG, 8); (KINDIRECT, 8); (KRIP, 8); (KSIB, 8); (KDISP, 8)]
  | XMM2M32 =>
      [(KFREG, 4); (KINDIRECT, 4); (KRIP, 4); (KSIB, 4); (KDISP, 4)]
  end.

(** opcode_find_succs, opcode.c 1184-1207: an entry ends up at the nodes reached
    by the keys of its operands, one per level *)
Fixpoint keys_match (ls : list (low * enc)) (ks : list key) : bool :=
  match ls, ks with
  | [], [] => true
  | (l, _) :: ls', k :: ks' => existsb (key_eqb k) (low_to_high l) && keys_match ls' ks'
  | _, _ => false
  end.

(** the entries at the node that opcode.c 1281-1328 walks to *)
Definition candidates (name : string) (ks : list key) : list tmpl :=
  filter (fun t => String.eqb (t_group t) name && keys_match (t_ops t) ks) table.

(** comparison of extensions *)
Definition ext_eqb (a b : ext) : bool :=
  match a, b with
  | IMM_BYTE, IMM_BYTE | IMM_WORD, IMM_WORD | IMM_DWORD, IMM_DWORD | IMM_QWORD, IMM_QWORD
  | SLASH0, SLASH0 | SLASH1, SLASH1 | SLASH2, SLASH2 | SLASH3, SLASH3
  | SLASH4, SLASH4 | SLASH5, SLASH5 | SLASH6, SLASH6 | SLASH7, SLASH7
  | SLASHR, SLASHR | REX, REX | REX_W, REX_W => true
  | _, _ => false
  end.
Definition has_ext (e : ext) (l : list ext) : bool := existsb (ext_eqb e) l.

(** has_rex_extension, opcode.c 1268-1278 *)
Definition has_rex_extension (l : list ext) : bool := has_ext REX l || has_ext REX_W l.

(** has_64_reg, opcode.c 1211-1228: spl, bpl, sil, dil and numbers from 8 *)
Definition has_64_reg (r : reg) : bool :=
  match r_class r with
  | G8 => (4 <=? r_index r)
  | _ => (8 <=? r_index r)
  end.

(** is_high_eight_reg, opcode.c 1233-1247 *)
Definition is_high_eight_reg (r : reg) : bool :=
  match r_class r with G8H => true | _ => false end.

(** the registers an operand mentions, opcode.c 1297-1312 *)
Definition operand_regs (o : operand) : list reg :=
  match o with
  | OReg r => [r]
  | OInd r _ => [r]
  | ODisp r _ _ => [r]
  | OSib b i _ _ _ =>
      match b with Some r => [r] | None => [] end ++
      match i with Some r => [r] | None => [] end
  | _ => []
  end.

(** has64_reg and has_high_eight_reg, opcode.c 1286-1320 *)
Definition has64 (ops : list operand) : bool :=
  existsb (fun o => existsb has_64_reg (operand_regs o)) ops.
Definition has_high (ops : list operand) : bool :=
  existsb (fun o => existsb is_high_eight_reg (operand_regs o)) ops.

(** the type of the first operand, 0 when there is none *)
Definition first_num (t : tmpl) : Z :=
  match t_ops t with [] => 0 | (l, _) :: _ => low_num l end.

(** one sweep of the bubble sort, opcode.c 1374-1383 *)
Fixpoint sweep (n : nat) (l : list tmpl) : list tmpl :=
  match n, l with
  | S n', a :: b :: r =>
      if first_num b <? first_num a then b :: sweep n' (a :: r) else a :: sweep n' (b :: r)
  | _, _ => l
  end.

(** opcode_sort_insts, opcode.c 1366-1391; stopping early when a sweep changes
    nothing is left out, since further sweeps then change nothing either *)
Fixpoint sort_insts (k : nat) (l : list tmpl) : list tmpl :=
  match k with
  | O => l
  | S k' => sort_insts k' (sweep k' l)
  end.

(** opcode_select, opcode.c 1330-1363, for the keys and the presence of a high
    byte register *)
Definition select_keys (name : string) (ks : list key) (high : bool) : option tmpl :=
  let insts :=
    filter (fun t => negb (high && has_rex_extension (t_ext t))) (candidates name ks) in
  match sort_insts (length insts) insts with
  | [] => None
  | t :: _ => Some t
  end.

Definition select (name : string) (ops : list operand) : option tmpl :=
  select_keys name (map key_of ops) (has_high ops).

(** ** Filling in the operands *)

(** rex_prefix_t, modrm_t, sib_t and amd64_binary_format_t, opcode.h 120-185 *)
Record rexp := Rex { x_w : bool; x_r : bool; x_x : bool; x_b : bool }.
Record modrm := MR { m_mod : Z; m_reg : Z; m_rm : Z }.
Record sibb := SB { s_scale : Z; s_index : Z; s_base : Z }.
Record format := F {
  f_prefix : Z;
  f_rex : option rexp;
  f_opcode : list Z;
  f_modrm : option modrm;
  f_sib : option sibb;
  f_disps : list Z;
  f_imms : list Z
}.

(** opcode.c 1421-1427 *)
Definition new_modrm : modrm := MR 0 0 0.
(** opcode.c 1399-1406 *)
Definition new_rex : rexp := Rex false false false false.

(** updates of one field *)
Definition with_prefix (p : Z) (f : format) : format :=
  F p (f_rex f) (f_opcode f) (f_modrm f) (f_sib f) (f_disps f) (f_imms f).
Definition with_rex (r : option rexp) (f : format) : format :=
  F (f_prefix f) r (f_opcode f) (f_modrm f) (f_sib f) (f_disps f) (f_imms f).
Definition with_opcode (o : list Z) (f : format) : format :=
  F (f_prefix f) (f_rex f) o (f_modrm f) (f_sib f) (f_disps f) (f_imms f).
Definition with_modrm (m : modrm) (f : format) : format :=
  F (f_prefix f) (f_rex f) (f_opcode f) (Some m) (f_sib f) (f_disps f) (f_imms f).
Definition with_sib (s : sibb) (f : format) : format :=
  F (f_prefix f) (f_rex f) (f_opcode f) (f_modrm f) (Some s) (f_disps f) (f_imms f).
(** set_disp, opcode.c 1543-1551 *)
Definition with_disps (d : list Z) (f : format) : format :=
  F (f_prefix f) (f_rex f) (f_opcode f) (f_modrm f) (f_sib f) d (f_imms f).
(** set_imm, opcode.c 1553-1558 *)
Definition with_imms (d : list Z) (f : format) : format :=
  F (f_prefix f) (f_rex f) (f_opcode f) (f_modrm f) (f_sib f) (f_disps f) d.

(** `if (format->modrm == NULL) format->modrm = new_modrm()` *)
Definition the_modrm (f : format) : modrm :=
  match f_modrm f with Some m => m | None => new_modrm end.

(** build_ext, opcode.c 1432-1541 *)
Definition slash (n : Z) (f : format) : format :=
  let m := the_modrm f in with_modrm (MR (m_mod m) n (m_rm m)) f.
Definition the_rex (f : format) : rexp :=
  match f_rex f with Some r => r | None => new_rex end.
Definition build_ext (f : format) (e : ext) : format :=
  match e with
  | SLASH0 => slash 0 f
  | SLASH1 => slash 1 f
  | SLASH2 => slash 2 f
  | SLASH3 => slash 3 f
  | SLASH4 => slash 4 f
  | SLASH5 => slash 5 f
  | SLASH6 => slash 6 f
  | SLASH7 => slash 7 f
  | SLASHR => with_modrm (the_modrm f) f
  | REX_W =>
      let r := the_rex f in with_rex (Some (Rex true (x_r r) (x_x r) (x_b r))) f
  | REX => with_rex (Some (the_rex f)) f
  | IMM_BYTE | IMM_WORD | IMM_DWORD | IMM_QWORD => f
  end.

(** `if (ext_exists[REX_W] || ext_exists[REX]) format->rex_prefix->b = v` and the
    same for the bits r and x *)
Definition set_rex (has : bool) (g : rexp -> rexp) (f : format) : res format :=
  if has then
    match f_rex f with
    | Some r => Ok (with_rex (Some (g r)) f)
    | None => UB
    end
  else Ok f.
Definition rex_b (v : bool) (r : rexp) : rexp := Rex (x_w r) (x_r r) (x_x r) v.
Definition rex_r (v : bool) (r : rexp) : rexp := Rex (x_w r) v (x_x r) (x_b r).
Definition rex_x (v : bool) (r : rexp) : rexp := Rex (x_w r) (x_r r) v (x_b r).

(** int32_to_uint8, opcode.c 1565-1571, and the memcpy of immediates on a
    little-endian machine *)
Fixpoint le_bytes (n : nat) (v : Z) : list Z :=
  match n with
  | O => []
  | S n' => (v mod 256) :: le_bytes n' (v / 256)
  end.

(** scale_to_sib_encoding, opcode.c 1577-1593 *)
Definition scale_enc (s : Z) : res Z :=
  if s =? 1 then Ok 0
  else if s =? 2 then Ok 1
  else if s =? 4 then Ok 2
  else if s =? 8 then Ok 3
  else if s =? 0 then Ok 0
  else Abort.

(** first byte of the opcode plus the register number, opcode.c 1690; uint8_t *)
Definition opcode_plus (o : list Z) (i : Z) : list Z :=
  match o with
  | [] => []
  | a :: r => ((a + Z.land i 7) mod 256) :: r
  end.

(** one operand of opcode_fill, opcode.c 1660-1957; [has] says whether the entry
    or the instruction has a REX prefix, [slashr] whether the entry has /r *)
Definition fill_operand (has slashr : bool) (e : enc) (o : operand) (f : format)
  : res format :=
  match o with
  | OReg r =>
      match e with
      | MODRM_RM =>
          let m := the_modrm f in
          set_rex has (rex_b (7 <? r_index r))
            (with_modrm (MR 3 (m_reg m) (Z.land (r_index r) 7)) f)
      | MODRM_REG =>
          let m := match f_modrm f with Some m => m | None => MR 3 0 0 end in
          if slashr then
            set_rex has (rex_r (7 <? r_index r))
              (with_modrm (MR (m_mod m) (Z.land (r_index r) 7) (m_rm m)) f)
          else Ok (with_modrm m f)
      | OPCODE_PLUS =>
          set_rex has (rex_b (7 <? r_index r))
            (with_opcode (opcode_plus (f_opcode f) (r_index r)) f)
      | IMM => Abort
      end
  | ODisp r d _ =>
      match e with
      | MODRM_RM =>
          let m := the_modrm f in
          let short := (-128 <=? d) && (d <=? 127) in
          set_rex has (rex_b (7 <? r_index r))
            (with_disps (if short then le_bytes 1 d else le_bytes 4 d)
              (with_modrm (MR (if short then 1 else 2) (m_reg m) (Z.land (r_index r) 7)) f))
      | _ => Abort
      end
  | OInd r _ =>
      match e with
      | MODRM_RM =>
          let m := the_modrm f in
          let f1 :=
            if (r_index r =? 13) || (r_index r =? 5)
            then with_disps [0] (with_modrm (MR 1 (m_reg m) (r_index r)) f)
            else with_disps [] (with_modrm (MR 0 (m_reg m) (r_index r)) f) in
          set_rex has (rex_b (7 <? r_index r)) f1
      | MODRM_REG =>
          let m := match f_modrm f with Some m => m | None => MR 1 0 0 end in
          set_rex has (rex_r (7 <? r_index r))
            (with_modrm (MR (m_mod m) (r_index r) (m_rm m)) f)
      | _ => Abort
      end
  | ORip d _ =>
      match e with
      | MODRM_RM =>
          Ok (with_disps (le_bytes 4 d) (with_modrm (MR 0 (m_reg (the_modrm f)) 5) f))
      | MODRM_REG =>
          Ok (with_disps (le_bytes 4 d) (with_modrm (MR 0 5 (m_rm (the_modrm f))) f))
      | _ => Ok f
      end
  | OSeg s d _ =>
      Ok (with_disps (le_bytes 4 d)
           (with_sib (SB 0 4 5)
             (with_modrm (MR 0 (m_reg (the_modrm f)) 4)
               (with_prefix (match s with Fs => 100 | Gs => 101 end) f))))
  | OSib b i sc d _ =>
      match e with
      | MODRM_RM =>
          let m := the_modrm f in
          let si := match i with Some r => r_index r | None => 4 end in
          s <- scale_enc sc ;;
          match b with
          | None =>
              f1 <- set_rex has (rex_x (7 <? si))
                      (with_sib (SB s si 5) (with_modrm (MR 0 (m_reg m) 4) f)) ;;
              Ok (with_disps (le_bytes 4 d) f1)
          | Some rb =>
              let sb := r_index rb in
              f1 <- set_rex has (fun r => rex_b (7 <? sb) (rex_x (7 <? si) r))
                      (with_sib (SB s si sb) f) ;;
              let f2 :=
                if d =? 0 then with_modrm (MR 0 (m_reg m) 4) f1
                else if (-128 <=? d) && (d <=? 127)
                then with_disps (le_bytes 1 d) (with_modrm (MR 1 (m_reg m) 4) f1)
                else with_disps (le_bytes 4 d) (with_modrm (MR 2 (m_reg m) 4) f1) in
              if (sb =? 13) || (sb =? 5)
              then Ok (with_disps [0] (with_modrm (MR 1 (m_reg m) 4) f2))
              else Ok f2
          end
      | _ => Ok f
      end
  | OUint64 v => Ok (with_imms (le_bytes 8 v) f)
  | OFloat64 v => Ok (with_imms (le_bytes 8 v) f)
  | OUint32 v | OUint v => Ok (with_imms (le_bytes 4 v) f)
  | OUint16 v => Ok (with_imms (le_bytes 2 v) f)
  | OUint8 v => Ok (with_imms (le_bytes 1 v) f)
  (* opcode.c 1939-1943 copies 8 bytes of which only 4 are set *)
  | OFloat32 _ => UB
  | OSym _ => Abort
  end.

(** the loop over the operands, opcode.c 1656-1971 *)
Fixpoint fill_operands (has slashr : bool) (ls : list (low * enc)) (os : list operand)
  (f : format) : res format :=
  match ls, os with
  | [], _ => Ok f
  | (_, e) :: ls', o :: os' =>
      f1 <- fill_operand has slashr e o f ;; fill_operands has slashr ls' os' f1
  | _ :: _, [] => UB
  end.

(** opcode_fill, opcode.c 1630-1655: the prefix, the extensions, and the REX
    prefix that registers from number 8 ask for (asm_inst.need_rex_ext, set at
    opcode.c 1336) *)
Definition fill (t : tmpl) (ops : list operand) : res format :=
  let f0 := F (t_prefix t) None (t_opcode t) None None [] [] in
  let f1 := fold_left build_ext (t_ext t) f0 in
  let need := has64 ops in
  let f2 := if need && negb (has_rex_extension (t_ext t)) then build_ext f1 REX else f1 in
  fill_operands (need || has_rex_extension (t_ext t)) (has_ext SLASHR (t_ext t))
    (t_ops t) ops f2.

(** ** Writing the bytes *)

(** opcode_rex_encoding, opcode.c 2028-2046 *)
Definition rex_byte (r : rexp) : Z :=
  (if x_b r then 1 else 0) + (if x_x r then 2 else 0) + (if x_r r then 4 else 0)
  + (if x_w r then 8 else 0) + 64.

(** opcode_modrm_encoding, opcode.c 2048-2056 *)
Definition modrm_byte (m : modrm) : Z :=
  Z.lor (Z.lor (Z.land (m_rm m) 7) (Z.shiftl (Z.land (m_reg m) 7) 3)) (Z.shiftl (m_mod m) 6).

(** opcode_sib_encoding, opcode.c 2058-2063 *)
Definition sib_byte (s : sibb) : Z :=
  Z.lor (Z.lor (Z.land (s_base s) 7) (Z.shiftl (Z.land (s_index s) 7) 3)) (Z.shiftl (s_scale s) 6).

(** `while (j < 3 && format->opcode[j] > 0)`, opcode.c 2079-2082 *)
Fixpoint opcode_bytes (l : list Z) : list Z :=
  match l with
  | [] => []
  | a :: r => if 0 <? a then a :: opcode_bytes r else []
  end.

(** opcode_format_encoding, opcode.c 2065-2099 *)
Definition format_encoding (f : format) : list Z :=
  (if 0 <? f_prefix f then [f_prefix f] else [])
  ++ match f_rex f with Some r => [rex_byte r] | None => [] end
  ++ opcode_bytes (f_opcode f)
  ++ match f_modrm f with Some m => [modrm_byte m] | None => [] end
  ++ match f_sib f with Some s => [sib_byte s] | None => [] end
  ++ f_disps f
  ++ f_imms f.

(** amd64_asm_inst_encoding, opcode.c 2101-2118; no matching entry fails an
    assertion (1282, 1326, 1353-1360) *)
Definition encode (name : string) (ops : list operand) : res (list Z) :=
  match select name ops with
  | None => Abort
  | Some t => f <- fill t ops ;; Ok (format_encoding f)
  end.

(** ** The slot of a displacement *)

(** is_imm_operand, amd64.h 28-37 *)
Definition is_imm_operand (o : operand) : bool :=
  match o with
  | OUint _ | OUint8 _ | OUint16 _ | OUint32 _ | OUint64 _ => true
  | _ => false
  end.

(** the [size] field of an operand *)
Definition size_of (o : operand) : Z := snd (key_of o).

(** rip_offset, amd64.h 50-65 *)
Definition rip_offset (count : Z) (ops : list operand) : Z :=
  let o := count - 4 in
  if 1 <? zlen ops then
    match rev ops with
    | l :: _ => if is_imm_operand l then o - size_of l else o
    | [] => o
    end
  else o.

(** ** Memory operands of the compiler's instructions *)

(** lir_indirect_addr_t once registers are assigned (src/lir.h): the base and
    the index are registers, or the base is absent, or the base is a stack slot *)
Inductive lbase := LNone | LReg (r : reg) | LStack (slot size : Z).
Record laddr := LA { la_base : lbase; la_index : option reg; la_scale : Z; la_offset : Z }.

(** the C conversion to int32_t when a displacement is stored, asm.h 208, 222 *)
Definition to_int32 (v : Z) : Z := (v + 2147483648) mod 4294967296 - 2147483648.

(** LIR_OPERAND_STACK, native/amd64.c 130-136; [frame] is c->stack_offset *)
Definition trans_stack (frame slot size : Z) : operand :=
  OSib (Some (Rg G64 4)) None 0 (to_int32 (frame - (- slot))) size.

(** LIR_OPERAND_INDIRECT_ADDR, native/amd64.c 167-217; [size] is the size of the
    value at the address *)
Definition trans_addr (a : laddr) (size : Z) : res operand :=
  match la_base a, la_index a with
  | LNone, Some i => Ok (OSib None (Some i) (la_scale a) (to_int32 (la_offset a)) size)
  | LNone, None => UB
  | LStack slot ssize, _ => Ok (ODisp (Rg G64 5) (to_int32 (slot + la_offset a)) ssize)
  | LReg r, Some i => Ok (OSib (Some r) (Some i) (la_scale a) (to_int32 (la_offset a)) size)
  | LReg r, None =>
      if (r_index r =? 4) || (r_index r =? 12)
      then Ok (OSib (Some r) None 0 (to_int32 (la_offset a)) size)
      else if la_offset a =? 0 then Ok (OInd r size)
      else Ok (ODisp r (to_int32 (la_offset a)) size)
  end.

(** The kinds of numbers lir_imm_t.kind tells apart (native/amd64.c 141-160):
    TYPE_INT, TYPE_UINT, TYPE_INT64, TYPE_UINT64 and TYPE_ANYPTR are [I64] *)
Inductive ikind := I64 | I32 | I16 | I8 | IBool.

(** LIR_OPERAND_IMM, native/amd64.c 139-160; [v] is v->uint_value, a 64-bit
    pattern.  For a bool the model reads the byte v->bool_value out of the same
    union (src/lir.h 215-222).  Floats are not modelled: lowering puts them in
    the data section. *)
Definition trans_imm (k : ikind) (v : Z) : operand :=
  match k with
  | I64 =>
      let i := if v <? 2 ^ 63 then v else v - 2 ^ 64 in
      if (2147483647 <? i) || (i <? -2147483648) then OUint64 v else OUint32 (v mod 2 ^ 32)
  | I32 => OUint32 (v mod 2 ^ 32)
  | I16 => OUint16 (v mod 2 ^ 16)
  | I8 => OUint8 (v mod 2 ^ 8)
  | IBool => OUint8 (v mod 2 ^ 8)
  end.
