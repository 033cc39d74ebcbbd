(** Machine code for RISC-V: the instruction encoder.

    Code modelled: src/binary/encoding/riscv64/opcode.h (instruction words,
    lines 34-275) and src/binary/encoding/riscv64/opcode.c (one function per
    group of instructions, lines 166-1071), called from
    riscv64_asm_inst_encoding (opcode.c 1278-1299).

    Simplifications, everywhere in this file:
    - the table that picks a handler from the operand kinds (opcode.c 9-163,
      1077-1128) is not modelled: an instruction is given by the handler's
      group, its mnemonic and its operands;
    - register operands are the numbers 0..31 of [reg.index];
    - C's [int]/[int64_t] shifts are done in Z and cut to 32 or 16 bits when
      the word is stored, as the assignment to the [unsigned] buffer does
      (the left shifts that overflow [int], e.g. [0x51 << 25], are taken as
      two's complement, which is what the compilers used do);
    - the debug print is left out. *)
From Coq Require Import ZArith List Bool Lia.
From Verif Require Import Base.
Import ListNotations.
Open Scope Z_scope.

(** ** Mnemonics (asm.h 368-499, the [O_...] enumeration, by handler) *)

(** three integer registers: the cases of asm_3r, opcode.c 192-338 *)
Inductive op3 :=
  ADD | ADDW | SUB | SUBW | MUL | MULW | DIV | DIVU | DIVW | DIVUW
| REM | REMU | REMW | REMUW | AND | OR | XOR
| SLL | SLLW | SRL | SRLW | SRA | SRAW | SLT | SLTU.

(** two integer registers and a constant: asm_2ri, opcode.c 340-482 *)
Inductive opi :=
  ADDI | ADDIW | ANDI | ORI | XORI | SLTI | SLTIU
| SLLI | SLLIW | SRLI | SRLIW | SRAI | SRAIW.

(** two integer registers: asm_2r, opcode.c 484-531 *)
Inductive op2 :=
  NEG | NOT | SEXT_B | SEXT_H | SEXT_W | ZEXT_B | ZEXT_H | ZEXT_W
| SEQZ | SNEZ | SLTZ | SGTZ.

(** loads, stores, branches: opcode.c 608-656, 658-694, 738-770 *)
Inductive ldop := LB | LH | LW | LD | LBU | LHU | LWU.
Inductive sdop := SB | SH | SW | SD.
Inductive brop := BEQ | BNE | BLT | BGE | BLTU | BGEU.

(** floating point: the width comes first, [true] for double.
    asm_3fr 800-856, asm_2fr 858-894, asm_fcmp 896-927, asm_fi 987-1022,
    asm_if 1024-1071 *)
Inductive f3op := FADD | FSUB | FMUL | FDIV | FSGNJ | FSGNJN | FSGNJX.
Inductive f2op := FSQRT | FMV | FNEG.
Inductive fcmp := FEQ | FLT | FLE.
Inductive icv := CW | CWU | CL | CLU.

(** An instruction handed to the encoder, after its opcode was matched. *)
Inductive asm :=
| ANoop
| A3 (o : op3) (rd rs1 rs2 : Z)
| AI (o : opi) (rd rs imm : Z)
| A2 (o : op2) (rd rs : Z)
| AMv (rd rs : Z)
| ALi (rd imm : Z)
| ALa (rd : Z)
| ALuis (rd : Z)
| AAddis (rd : Z)
| ALd (o : ldop) (rd ofs rs : Z)
| ASd (o : sdop) (rs2 ofs rs1 : Z)
| AJ (imm : Z)
| AJr (rs : Z)
| AJalr (rs : Z)
| ABr (o : brop) (rs1 rs2 ofs : Z)
| ACall (ofs : Z)
| ARet
| AEcall
| AF3 (o : f3op) (dbl : bool) (rd rs1 rs2 : Z)
| AF2 (o : f2op) (dbl : bool) (rd rs : Z)
| AFcvtDS (rd rs : Z)
| AFcvtSD (rd rs : Z)
| AFcmp (o : fcmp) (dbl : bool) (rd rs1 rs2 : Z)
| AFld (dbl : bool) (rd ofs rs : Z)
| AFsd (dbl : bool) (rs2 ofs rs1 : Z)
| AFi (o : icv) (dbl : bool) (rd rs : Z)
| AIf (o : icv) (dbl : bool) (rd rs rm : Z)
| AFmvX (dbl : bool) (rd rs : Z).

(** ** Instruction words *)

(** EXTRACT_IMM, opcode.h 38 *)
Definition extract (imm t b : Z) : Z :=
  Z.land (Z.shiftr imm b) (Z.shiftl 1 (t - b + 1) - 1).

(** RTYPE, opcode.h 41 *)
Definition rtype (f7 rs2 rs1 f3 rd op : Z) : Z :=
  Z.lor (Z.lor (Z.lor (Z.lor (Z.lor (Z.shiftl f7 25) (Z.shiftl rs2 20))
    (Z.shiftl rs1 15)) (Z.shiftl f3 12)) (Z.shiftl rd 7)) op.

(** ITYPE, opcode.h 42 *)
Definition itype (imm rs1 f3 rd op : Z) : Z :=
  Z.lor (Z.lor (Z.lor (Z.lor (Z.shiftl (extract imm 11 0) 20)
    (Z.shiftl rs1 15)) (Z.shiftl f3 12)) (Z.shiftl rd 7)) op.

(** STYPE, opcode.h 43 *)
Definition stype (imm rs2 rs1 f3 op : Z) : Z :=
  Z.lor (Z.lor (Z.lor (Z.lor (Z.lor (Z.shiftl (extract imm 11 5) 25)
    (Z.shiftl rs2 20)) (Z.shiftl rs1 15)) (Z.shiftl f3 12))
    (Z.shiftl (extract imm 4 0) 7)) op.

(** UTYPE, opcode.h 45 *)
Definition utype (imm rd op : Z) : Z :=
  Z.lor (Z.lor (Z.shiftl (extract imm 31 12) 12) (Z.shiftl rd 7)) op.

(** SWIZZLE_JAL, opcode.h 269 *)
Definition swizzle_jal (o : Z) : Z :=
  Z.lor (Z.lor (Z.lor (Z.shiftl (extract o 20 20) 31)
    (Z.shiftl (extract o 10 1) 21)) (Z.shiftl (extract o 11 11) 20))
    (Z.shiftl (extract o 19 12) 12).

(** SWIZZLE_BXX, opcode.h 266-268 *)
Definition swizzle_bxx (o : Z) : Z :=
  Z.lor (Z.lor (Z.lor (Z.shiftl (extract o 12 12) 31)
    (Z.shiftl (extract o 10 5) 25)) (Z.shiftl (extract o 4 1) 8))
    (Z.shiftl (extract o 11 11) 7).

(** one 32-bit word in the instruction buffer, low byte first:
    MAKE_CODE32 and make_code32, opcode.h 12-16, 26-32 *)
Definition code32 (w : Z) : list Z :=
  let u := Z.land w (Z.ones 32) in
  [u mod 256; (u / 256) mod 256; (u / 65536) mod 256; (u / 16777216) mod 256].

(** one 16-bit word: MAKE_CODE16 and make_code16, opcode.h 6-10, 18-24 *)
Definition code16 (w : Z) : list Z :=
  let u := Z.land w (Z.ones 16) in [u mod 256; (u / 256) mod 256].

(** is_rvc_reg, to_rvc_reg, opcode.h 272-275 *)
Definition rvc (r : Z) : bool := (8 <=? r) && (r <=? 15).
Definition torvc (r : Z) : Z := r - 8.

(** 32-bit integer instructions W_ADD ... W_SLTU, opcode.h 49-84 *)
Definition w3 (o : op3) (rd rs1 rs2 : Z) : list Z :=
  let '(f7, f3, op) :=
    match o with
    | ADD => (0x00, 0, 0x33) | ADDW => (0x00, 0, 0x3b)
    | SUB => (0x20, 0, 0x33) | SUBW => (0x20, 0, 0x3b)
    | MUL => (0x01, 0, 0x33) | MULW => (0x01, 0, 0x3b)
    | DIV => (0x01, 4, 0x33) | DIVU => (0x01, 5, 0x33)
    | DIVW => (0x01, 4, 0x3b) | DIVUW => (0x01, 5, 0x3b)
    | REM => (0x01, 6, 0x33) | REMU => (0x01, 7, 0x33)
    | REMW => (0x01, 6, 0x3b) | REMUW => (0x01, 7, 0x3b)
    | AND => (0x00, 7, 0x33) | OR => (0x00, 6, 0x33) | XOR => (0x00, 4, 0x33)
    | SLL => (0x00, 1, 0x33) | SLLW => (0x00, 1, 0x3b)
    | SRL => (0x00, 5, 0x33) | SRLW => (0x00, 5, 0x3b)
    | SRA => (0x20, 5, 0x33) | SRAW => (0x20, 5, 0x3b)
    | SLT => (0x00, 2, 0x33) | SLTU => (0x00, 3, 0x33)
    end in
  code32 (rtype f7 rs2 rs1 f3 rd op).

(** W_ADDI ... W_SLTIU, opcode.h 51-52, 66-82, 85-86 *)
Definition wi (o : opi) (rd rs imm : Z) : list Z :=
  match o with
  | ADDI => code32 (itype imm rs 0 rd 0x13)
  | ADDIW => code32 (itype imm rs 0 rd 0x1b)
  | ANDI => code32 (itype imm rs 7 rd 0x13)
  | ORI => code32 (itype imm rs 6 rd 0x13)
  | XORI => code32 (itype imm rs 4 rd 0x13)
  | SLTI => code32 (itype imm rs 2 rd 0x13)
  | SLTIU => code32 (itype imm rs 3 rd 0x13)
  | SLLI => code32 (itype (Z.land imm 63) rs 1 rd 0x13)
  | SLLIW => code32 (itype (Z.land imm 31) rs 1 rd 0x1b)
  | SRLI => code32 (itype (Z.land imm 63) rs 5 rd 0x13)
  | SRLIW => code32 (itype (Z.land imm 63) rs 5 rd 0x1b)
  | SRAI => code32 (itype (Z.lor 0x400 (Z.land imm 63)) rs 5 rd 0x13)
  | SRAIW => code32 (itype (Z.lor 0x400 (Z.land imm 63)) rs 5 rd 0x1b)
  end.

(** W_LB ... W_LWU and W_SB ... W_SD, opcode.h 87-97 *)
Definition wld (o : ldop) (rd ofs rs : Z) : list Z :=
  let f3 := match o with LB => 0 | LH => 1 | LW => 2 | LD => 3
                       | LBU => 4 | LHU => 5 | LWU => 6 end in
  code32 (itype ofs rs f3 rd 0x03).
Definition wsd (o : sdop) (rs2 ofs rs1 : Z) : list Z :=
  let f3 := match o with SB => 0 | SH => 1 | SW => 2 | SD => 3 end in
  code32 (stype ofs rs2 rs1 f3 0x23).

(** W_LUI, W_AUIPC, W_JAL, W_JALR, W_BXX, W_ECALL, opcode.h 98-103 *)
Definition w_lui (rd imm : Z) := code32 (utype imm rd 0x37).
Definition w_auipc (rd imm : Z) := code32 (utype imm rd 0x17).
Definition w_jal (rd imm : Z) := code32 (utype (swizzle_jal imm) rd 0x6f).
Definition w_jalr (rd rs imm : Z) := code32 (itype imm rs 0 rd 0x67).
Definition w_bxx (xx rs1 rs2 ofs : Z) :=
  code32 (Z.lor (stype 0 rs2 rs1 xx 0x63) (swizzle_bxx ofs)).
Definition w_ecall := code32 (utype 0 0 0x73).

(** 16-bit forms, opcode.h 157-192 *)
Definition or3 (a b c : Z) := Z.lor (Z.lor a b) c.
Definition or4 (a b c d : Z) := Z.lor (or3 a b c) d.
Definition or5 (a b c d e : Z) := Z.lor (or4 a b c d) e.
Definition or6 (a b c d e f : Z) := Z.lor (or5 a b c d e) f.

(** C_MV, C_ADD, C_JR, C_JALR, opcode.h 157, 160, 191-192 *)
Definition c_mv (rd rs : Z) := code16 (or3 0x8002 (Z.shiftl rd 7) (Z.shiftl rs 2)).
Definition c_add (rd rs : Z) := code16 (or3 0x9002 (Z.shiftl rd 7) (Z.shiftl rs 2)).
Definition c_jr (rs : Z) := code16 (Z.lor 0x8002 (Z.shiftl rs 7)).
Definition c_jalr (rs : Z) := code16 (Z.lor 0x9002 (Z.shiftl rs 7)).

(** C_LI, C_ADDI, C_ADDIW, C_SLLI (opcode.h 158, 162, 163, 171): a six-bit
    constant split over bit 12 and bits 6..2 *)
Definition c_imm6 (base rd imm : Z) : Z :=
  or4 base (Z.shiftl (extract imm 5 5) 12) (Z.shiftl rd 7)
      (Z.shiftl (extract imm 4 0) 2).
Definition c_li (rd imm : Z) := code16 (c_imm6 0x4001 rd imm).
Definition c_addi (rd imm : Z) := code16 (c_imm6 0x0001 rd imm).
Definition c_addiw (rd imm : Z) := code16 (c_imm6 0x2001 rd imm).
Definition c_slli (rd imm : Z) := code16 (c_imm6 0x0002 rd imm).

(** C_ANDI, C_SRLI, C_SRAI (opcode.h 168, 172, 173) *)
Definition c_andi (rd imm : Z) := code16 (c_imm6 0x8801 (torvc rd) imm).
Definition c_srli (rd imm : Z) := code16 (c_imm6 0x8001 (torvc rd) imm).
Definition c_srai (rd imm : Z) := code16 (c_imm6 0x8401 (torvc rd) imm).

(** C_LUI, opcode.h 159 *)
Definition c_lui (rd imm : Z) :=
  code16 (or4 0x6001 (Z.shiftl (extract imm 17 17) 12) (Z.shiftl rd 7)
              (Z.shiftl (extract imm 16 12) 2)).

(** C_ADDI16SP, opcode.h 164 *)
Definition c_addi16sp (imm : Z) :=
  code16 (or6 0x6101 (Z.shiftl (extract imm 9 9) 12)
              (Z.shiftl (extract imm 4 4) 6) (Z.shiftl (extract imm 6 6) 5)
              (Z.shiftl (extract imm 8 7) 3) (Z.shiftl (extract imm 5 5) 2)).

(** C_SUB, C_XOR, C_OR, C_AND, C_SUBW, C_ADDW, opcode.h 161, 165-167, 169-170 *)
Definition c_rr (base rd rs : Z) :=
  code16 (or3 base (Z.shiftl (torvc rd) 7) (Z.shiftl (torvc rs) 2)).

(** C_LW, opcode.h 174 *)
Definition c_lw (rd imm rs : Z) :=
  code16 (or6 0x4000 (Z.shiftl (extract imm 5 3) 10) (Z.shiftl (torvc rs) 7)
              (Z.shiftl (extract imm 2 2) 6) (Z.shiftl (extract imm 6 6) 5)
              (Z.shiftl (torvc rd) 2)).

(** C_LD, C_SW, C_SD, C_FLD, C_FSD (opcode.h 175-177, 196-197).  All five use
    the layout of a doubleword offset, C_SW included. *)
Definition c_dword (base reg imm addr : Z) :=
  code16 (or5 base (Z.shiftl (extract imm 5 3) 10) (Z.shiftl (torvc addr) 7)
              (Z.shiftl (extract imm 7 6) 5) (Z.shiftl (torvc reg) 2)).
Definition c_ld (rd imm rs : Z) := c_dword 0x6000 rd imm rs.
Definition c_sw (rs2 imm rs1 : Z) := c_dword 0xc000 rs2 imm rs1.
Definition c_sd (rs2 imm rs1 : Z) := c_dword 0xe000 rs2 imm rs1.
Definition c_fld (rd imm rs : Z) := c_dword 0x2000 rd imm rs.
Definition c_fsd (rs2 imm rs1 : Z) := c_dword 0xa000 rs2 imm rs1.

(** C_LDSP, C_FLDSP, opcode.h 178, 198 *)
Definition c_ldsp_ (base rd imm : Z) :=
  code16 (or5 base (Z.shiftl (extract imm 5 5) 12) (Z.shiftl rd 7)
              (Z.shiftl (extract imm 4 3) 5) (Z.shiftl (extract imm 8 6) 2)).
Definition c_ldsp (rd imm : Z) := c_ldsp_ 0x6002 rd imm.
Definition c_fldsp (rd imm : Z) := c_ldsp_ 0x2002 rd imm.

(** C_SDSP, C_FSDSP, opcode.h 179, 199 *)
Definition c_sdsp_ (base rs imm : Z) :=
  code16 (or4 base (Z.shiftl (extract imm 5 3) 10)
              (Z.shiftl (extract imm 8 6) 7) (Z.shiftl rs 2)).
Definition c_sdsp (rs imm : Z) := c_sdsp_ 0xe002 rs imm.
Definition c_fsdsp (rs imm : Z) := c_sdsp_ 0xa002 rs imm.

(** ** The handlers *)

(** is_im6, is_uim6, is_im12, is_im32, opcode.c 168-190; is_uim6 takes an
    unsigned 64-bit argument, so negative constants are not in its range *)
Definition is_im6 (x : Z) : bool := (x <=? 31) && (-32 <=? x).
Definition is_uim6 (x : Z) : bool := x mod 2 ^ 64 <=? 63.
Definition is_im12 (x : Z) : bool := (x <=? 2047) && (-2048 <=? x).
Definition is_im32 (x : Z) : bool := (x <=? 2 ^ 31 - 1) && (- 2 ^ 31 <=? x).

(** the 16-bit cases of asm_3r, opcode.c 200-249; [None]: no such form *)
Definition c3 (o : op3) (rd rs1 rs2 : Z) : option (list Z) :=
  if rd =? rs1 then
    if rvc rd && rvc rs2 then
      match o with
      | ADD => Some (c_add rd rs2)
      | ADDW => Some (c_rr 0x9c21 rd rs2)
      | SUB => Some (c_rr 0x8c01 rd rs2)
      | SUBW => Some (c_rr 0x9c01 rd rs2)
      | AND => Some (c_rr 0x8c61 rd rs2)
      | OR => Some (c_rr 0x8c41 rd rs2)
      | XOR => Some (c_rr 0x8c21 rd rs2)
      | _ => None
      end
    else None
  else if rd =? rs2 then
    if rvc rd && rvc rs1 then
      match o with
      | ADD => Some (c_add rd rs1)
      | ADDW => Some (c_rr 0x9c21 rd rs1)
      | AND => Some (c_rr 0x8c61 rd rs1)
      | OR => Some (c_rr 0x8c41 rd rs1)
      | XOR => Some (c_rr 0x8c21 rd rs1)
      | _ => None
      end
    else None
  else None.

(** asm_3r, opcode.c 192-338 *)
Definition asm_3r (o : op3) (rd rs1 rs2 : Z) : list Z :=
  match c3 o rd rs1 rs2 with
  | Some c => c
  | None =>
    match o with
    | ADD => if rd =? rs1 then c_add rd rs2
             else if rd =? rs2 then c_add rd rs1
             else w3 ADD rd rs1 rs2
    | _ => w3 o rd rs1 rs2
    end
  end.

(** asm_mv, opcode.c 538-546 *)
Definition asm_mv (rd rs : Z) : list Z :=
  if rs =? 0 then c_li rd 0 else c_mv rd rs.

(** the 16-bit cases of asm_2ri when source and destination are the same
    register, opcode.c 354-405; [R_SP->index] is 2 *)
Definition ci (o : opi) (rd imm : Z) : option (list Z) :=
  let small :=
    if is_im6 imm then
      match o with
      | ADDI => if negb (imm =? 0) then Some (c_addi rd imm) else None
      | ADDIW => Some (c_addiw rd imm)
      | ANDI => if rvc rd then Some (c_andi rd imm) else None
      | _ => None
      end
    else None in
  match small with
  | Some c => Some c
  | None =>
    let sh :=
      if is_uim6 imm then
        match o with
        | SLLI => if negb (rd =? 0) && negb (imm =? 0)
                  then Some (c_slli rd imm) else None
        | SRLI => if rvc rd then Some (c_srli rd imm) else None
        | SRAI => if rvc rd then Some (c_srai rd imm) else None
        | _ => None
        end
      else None in
    match sh with
    | Some c => Some c
    | None =>
      match o with
      | ADDI => if (rd =? 2) && is_im6 (Z.shiftr imm 4) &&
                   (Z.land imm 15 =? 0) && negb (imm =? 0)
                then Some (c_addi16sp imm) else None
      | _ => None
      end
    end
  end.

(** asm_2ri, opcode.c 340-482; NULL stops the compiler at opcode.c 1289 *)
Definition asm_2ri (o : opi) (rd rs imm : Z) : res (list Z) :=
  match o, imm =? 0 with
  | ADDI, true => Ok (if rd =? rs then [] else asm_mv rd rs)
  | _, _ =>
    match (if rd =? rs then ci o rd imm else None) with
    | Some c => Ok c
    | None =>
      match o with
      | ADDI | ADDIW | ANDI | ORI | XORI | SLTI | SLTIU =>
          if (2048 <=? imm) || (imm <? -2048) then Abort
          else Ok (wi o rd rs imm)
      | SLLIW => if (32 <=? imm) || (imm <? 0) then Abort
                 else Ok (wi o rd rs imm)
      | SLLI | SRLI | SRLIW | SRAI | SRAIW =>
          if (64 <=? imm) || (imm <? 0) then Abort
          else Ok (wi o rd rs imm)
      end
    end
  end.

(** P_SEXT_B, P_SEXT_H, P_ZEXT_H, P_ZEXT_W, opcode.h 206-223, 231-248: shift
    left, then right *)
Definition shift_pair (rd rs n : Z) (arith : bool) : list Z :=
  (if rd =? rs then c_slli rd n else wi SLLI rd rs n) ++
  (if arith then (if rvc rd then c_srai rd n else wi SRAI rd rd n)
   else (if rvc rd then c_srli rd n else wi SRLI rd rd n)).

(** asm_2r, opcode.c 484-531, with the pseudo instructions of opcode.h 204-252 *)
Definition asm_2r (o : op2) (rd rs : Z) : list Z :=
  match o with
  | NEG => w3 SUB rd 0 rs
  | NOT => wi XORI rd rs (-1)
  | SEXT_B => shift_pair rd rs 56 true
  | SEXT_H => shift_pair rd rs 48 true
  | SEXT_W => if rd =? rs then c_addiw rd 0 else wi ADDIW rd rs 0
  | ZEXT_B => wi ANDI rd rs 0xff
  | ZEXT_H => shift_pair rd rs 48 false
  | ZEXT_W => shift_pair rd rs 32 false
  | SEQZ => wi SLTIU rd rs 1
  | SNEZ => w3 SLTU rd 0 rs
  | SLTZ => w3 SLT rd rs 0
  | SGTZ => w3 SLT rd 0 rs
  end.

(** li_sub, opcode.c 548-582.  [fuel] bounds the recursion; the code appends
    to the buffer in the same order. *)
Fixpoint li_sub (fuel : nat) (rd imm : Z) : res (list Z) :=
  match fuel with
  | O => NoFuel
  | Datatypes.S fuel =>
    if is_im6 imm then Ok (c_li rd imm)
    else if is_im12 imm then Ok (wi ADDI rd 0 imm)
    else if is_im32 imm then
      let l0 := Z.land imm 0xfff in
      let '(l, imm) := if 0x800 <=? l0 then (l0 - 0x1000, imm + 4096)
                       else (l0, imm) in
      Ok ((if is_im6 (Z.shiftr imm 12) then c_lui rd imm else w_lui rd imm) ++
          (if is_im6 l then c_addiw rd l else wi ADDIW rd rd l))
    else
      let l0 := Z.land imm 4095 in
      let h0 := Z.shiftr imm 12 in
      let '(l, h) := if 2048 <=? l0 then (l0 - 4096, h0 + 1) else (l0, h0) in
      bind (li_sub fuel rd h) (fun c =>
      Ok (c ++ c_slli rd 12 ++
          (if is_im6 l then c_addi rd l else wi ADDI rd rd l)))
  end.

(** asm_ld, opcode.c 608-656 *)
Definition asm_ld (o : ldop) (rd ofs rs : Z) : list Z :=
  match o with
  | LW => if (0 <=? ofs) && (ofs <? 128) && (Z.land ofs 3 =? 0) && rvc rd && rvc rs
          then c_lw rd ofs rs else wld LW rd ofs rs
  | LD => if (0 <=? ofs) && (ofs <? 512) && (Z.land ofs 7 =? 0) && (rs =? 2)
          then c_ldsp rd ofs
          else if (0 <=? ofs) && (ofs <? 256) && (Z.land ofs 7 =? 0) && rvc rd && rvc rs
          then c_ld rd ofs rs else wld LD rd ofs rs
  | _ => wld o rd ofs rs
  end.

(** asm_sd, opcode.c 658-694; the offset is first cut to [int] *)
Definition to_int (x : Z) : Z := (x + 2 ^ 31) mod 2 ^ 32 - 2 ^ 31.
Definition asm_sd (o : sdop) (rs2 ofs0 rs1 : Z) : list Z :=
  let ofs := to_int ofs0 in
  match o with
  | SW => if (0 <=? ofs) && (ofs <? 128) && (Z.land ofs 3 =? 0) && rvc rs1 && rvc rs2
          then c_sw rs2 ofs rs1 else wsd SW rs2 ofs rs1
  | SD => if (0 <=? ofs) && (ofs <? 512) && (Z.land ofs 7 =? 0) && (rs1 =? 2)
          then c_sdsp rs2 ofs
          else if (0 <=? ofs) && (ofs <? 256) && (Z.land ofs 7 =? 0) && rvc rs1 && rvc rs2
          then c_sd rs2 ofs rs1 else wsd SD rs2 ofs rs1
  | _ => wsd o rs2 ofs rs1
  end.

(** asm_bxx, opcode.c 731-770 *)
Definition asm_bxx (o : brop) (rs1 rs2 ofs : Z) : list Z :=
  let f3 := match o with BEQ => 0 | BNE => 1 | BLT => 4 | BGE => 5
                       | BLTU => 6 | BGEU => 7 end in
  w_bxx f3 rs1 rs2 ofs.

(** asm_call_d, opcode.c 772-788; [ra] is register 1 *)
Definition asm_call_d (ofs : Z) : list Z := w_auipc 1 ofs ++ w_jalr 1 1 ofs.

(** asm_3fr, opcode.c 800-856; words opcode.h 105-112, 125-130 *)
Definition asm_3fr (o : f3op) (d : bool) (rd rs1 rs2 : Z) : list Z :=
  let '(f7d, f7s, f3) :=
    match o with
    | FADD => (0x01, 0x00, 7) | FSUB => (0x05, 0x04, 7)
    | FMUL => (0x09, 0x08, 7) | FDIV => (0x0d, 0x0c, 7)
    | FSGNJ => (0x11, 0x10, 0) | FSGNJN => (0x11, 0x10, 1)
    | FSGNJX => (0x11, 0x10, 2)
    end in
  code32 (rtype (if d then f7d else f7s) rs2 rs1 f3 rd 0x53).

(** asm_2fr, opcode.c 858-894; words opcode.h 113-114, 254-257 *)
Definition asm_2fr (o : f2op) (d : bool) (rd rs : Z) : list Z :=
  match o with
  | FSQRT => code32 (rtype (if d then 0x2d else 0x2c) 0 rs 7 rd 0x53)
  | FMV => asm_3fr FSGNJ d rd rs rs
  | FNEG => asm_3fr FSGNJN d rd rs rs
  end.

(** W_FCVT_D_S, W_FCVT_S_D (cases of asm_2fr), opcode.h 150-151 *)
Definition asm_fcvt_ds (rd rs : Z) : list Z := code32 (rtype 0x21 0 rs 0 rd 0x53).
Definition asm_fcvt_sd (rd rs : Z) : list Z := code32 (rtype 0x20 1 rs 7 rd 0x53).

(** asm_fcmp, opcode.c 896-927; words opcode.h 115-120 *)
Definition asm_fcmp (o : fcmp) (d : bool) (rd rs1 rs2 : Z) : list Z :=
  let f3 := match o with FEQ => 2 | FLT => 1 | FLE => 0 end in
  code32 (rtype (if d then 0x51 else 0x50) rs2 rs1 f3 rd 0x53).

(** asm_fld, opcode.c 929-956; asm_fsd, opcode.c 958-985 *)
Definition asm_fld (d : bool) (rd ofs rs : Z) : list Z :=
  if d && ((0 <=? ofs) && (ofs <? 512) && (Z.land ofs 7 =? 0) && (rs =? 2))
  then c_fldsp rd ofs
  else if d && ((0 <=? ofs) && (ofs <? 256) && (Z.land ofs 7 =? 0) && rvc rd && rvc rs)
  then c_fld rd ofs rs
  else code32 (itype ofs rs (if d then 3 else 2) rd 0x07).
Definition asm_fsd (d : bool) (rs2 ofs rs1 : Z) : list Z :=
  if d && ((0 <=? ofs) && (ofs <? 512) && (Z.land ofs 7 =? 0) && (rs1 =? 2))
  then c_fsdsp rs2 ofs
  else if d && ((0 <=? ofs) && (ofs <? 256) && (Z.land ofs 7 =? 0) && rvc rs1 && rvc rs2)
  then c_fsd rs2 ofs rs1
  else code32 (stype ofs rs2 rs1 (if d then 3 else 2) 0x27).

(** asm_fi, opcode.c 987-1022; words opcode.h 132-139 *)
Definition cvsel (o : icv) : Z :=
  match o with CW => 0 | CWU => 1 | CL => 2 | CLU => 3 end.
Definition asm_fi (o : icv) (d : bool) (rd rs : Z) : list Z :=
  let f3 := match o, d with CW, true | CWU, true => 0 | _, _ => 7 end in
  code32 (rtype (if d then 0x69 else 0x68) (cvsel o) rs f3 rd 0x53).

(** asm_if, opcode.c 1024-1071; words opcode.h 141-148, 153-154 *)
Definition asm_if (o : icv) (d : bool) (rd rs rm : Z) : list Z :=
  code32 (rtype (if d then 0x61 else 0x60) (cvsel o) rs rm rd 0x53).
Definition asm_fmvx (d : bool) (rd rs : Z) : list Z :=
  code32 (rtype (if d then 0x71 else 0x70) 0 rs 0 rd 0x53).

(** The dispatch table, opcode.c 1144-1276. *)
Definition handler (a : asm) : res (list Z) :=
  match a with
  | ANoop => Ok []
  | A3 o rd rs1 rs2 => Ok (asm_3r o rd rs1 rs2)
  | AI o rd rs imm => asm_2ri o rd rs imm
  | A2 o rd rs => Ok (asm_2r o rd rs)
  | AMv rd rs => Ok (asm_mv rd rs)
  | ALi rd imm => li_sub 8 rd imm
  | ALa rd => Ok (w_auipc rd 0 ++ wi ADDI rd rd 0)
  | ALuis rd => Ok (w_lui rd 0)
  | AAddis rd => Ok (wi ADDI rd rd 0)
  | ALd o rd ofs rs => Ok (asm_ld o rd ofs rs)
  | ASd o rs2 ofs rs1 => Ok (asm_sd o rs2 ofs rs1)
  | AJ imm => Ok (w_jal 0 imm)
  | AJr rs => Ok (c_jr rs)
  | AJalr rs => Ok (c_jalr rs)
  | ABr o rs1 rs2 ofs => Ok (asm_bxx o rs1 rs2 ofs)
  | ACall ofs => Ok (asm_call_d ofs)
  | ARet => Ok (c_jr 1)
  | AEcall => Ok w_ecall
  | AF3 o d rd rs1 rs2 => Ok (asm_3fr o d rd rs1 rs2)
  | AF2 o d rd rs => Ok (asm_2fr o d rd rs)
  | AFcvtDS rd rs => Ok (asm_fcvt_ds rd rs)
  | AFcvtSD rd rs => Ok (asm_fcvt_sd rd rs)
  | AFcmp o d rd rs1 rs2 => Ok (asm_fcmp o d rd rs1 rs2)
  | AFld d rd ofs rs => Ok (asm_fld d rd ofs rs)
  | AFsd d rs2 ofs rs1 => Ok (asm_fsd d rs2 ofs rs1)
  | AFi o d rd rs => Ok (asm_fi o d rd rs)
  | AIf o d rd rs rm => Ok (asm_if o d rd rs rm)
  | AFmvX d rd rs => Ok (asm_fmvx d rd rs)
  end.

(** riscv64_asm_inst_encoding, opcode.c 1278-1299.  The buffer opcode_data
    holds 26 bytes (asm.h 573) and make_code16/32 stop the compiler when an
    instruction would not fit (opcode.h 7, 13). *)
Definition encode (a : asm) : res (list Z) :=
  bind (handler a) (fun c => if 26 <? Z.of_nat (length c) then Abort else Ok c).
