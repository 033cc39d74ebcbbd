(** What RISC-V machine code does, and what each assembler instruction means.

    The first part is written from the RISC-V manual ("RV64GC", without the
    atomic, CSR, fence and fused-multiply instructions, which the encoder never
    emits): how bytes are cut into 16-bit and 32-bit instructions, how each is
    decoded, and its effect.  None of it comes from the encoder.  The second
    part says what the assembler's mnemonics mean.

    The arithmetic of floating-point numbers and the effect of a system call
    are left open: they are the fields of [env], and every theorem holds for
    all of them.  The exception flags of floating point are left out. *)
From Coq Require Import ZArith List Bool Lia.
From Verif Require Import Base Rv_model.
Import ListNotations.
Open Scope Z_scope.

(** ** Numbers *)

(** [n]-bit two's complement: the number in [-2^(n-1), 2^(n-1)) equal to [v]
    modulo 2^n; and the unsigned reading *)
Definition sx (n v : Z) : Z := (v + 2 ^ (n - 1)) mod 2 ^ n - 2 ^ (n - 1).
Definition ux (n v : Z) : Z := v mod 2 ^ n.

(** bits [lo], ..., [lo+n-1] of [w] *)
Definition fld (w lo n : Z) : Z := Z.land (Z.shiftr w lo) (Z.ones n).

(** ** Machine state *)

Record st := St {
  pc : Z;             (* address of the current instruction *)
  xr : Z -> Z;        (* integer registers, as signed 64-bit numbers *)
  fr : Z -> Z;        (* floating-point registers, as 64-bit patterns *)
  mem : Z -> Z;       (* bytes, by address *)
  frm : Z             (* the current rounding mode *)
}.

(** register 0 always reads as zero *)
Definition getx (s : st) (r : Z) : Z := if r =? 0 then 0 else xr s r.
Definition setx (s : st) (r v : Z) : st :=
  St (pc s) (fun k => if k =? r then v else xr s k) (fr s) (mem s) (frm s).
Definition setf (s : st) (r v : Z) : st :=
  St (pc s) (xr s) (fun k => if k =? r then v else fr s k) (mem s) (frm s).
Definition setpc (s : st) (p : Z) : st :=
  St (ux 64 p) (xr s) (fr s) (mem s) (frm s).

(** addresses wrap at 2^64; numbers in memory are little-endian *)
Fixpoint load (n : nat) (m : Z -> Z) (a : Z) : Z :=
  match n with
  | O => 0
  | Datatypes.S n => m (ux 64 a) + 256 * load n m (a + 1)
  end.
Definition store (n : Z) (m : Z -> Z) (a v : Z) : Z -> Z :=
  fun k => let i := ux 64 (k - a) in
           if i <? n then (v / 256 ^ i) mod 256 else m k.
Definition setmem (s : st) (n a v : Z) : st :=
  St (pc s) (xr s) (fr s) (store n (mem s) a v) (frm s).

(** two states nobody can tell apart *)
Definition same (s t : st) : Prop :=
  pc s = pc t /\ frm s = frm t /\ (forall r, getx s r = getx t r) /\
  (forall r, fr s r = fr t r) /\ (forall a, mem s a = mem t a).

(** registers hold 64-bit numbers; instructions are at even addresses *)
Definition wf (s : st) : Prop :=
  (forall r, - 2 ^ 63 <= xr s r < 2 ^ 63) /\ (forall r, 0 <= fr s r < 2 ^ 64) /\
  0 <= pc s < 2 ^ 64 /\ pc s mod 2 = 0.

(** What is left open: floating-point arithmetic (by operation, width and
    rounding mode) and the system call. *)
Record env := Env {
  e_arith : f3op -> bool -> Z -> Z -> Z -> Z;   (* op, double?, rounding, a, b *)
  e_sqrt : bool -> Z -> Z -> Z;
  e_cmp : fcmp -> bool -> Z -> Z -> bool;
  e_toint : icv -> bool -> Z -> Z -> Z;         (* double?, rounding, a *)
  e_ofint : icv -> bool -> Z -> Z -> Z;
  e_widen : Z -> Z;                             (* single to double, exact *)
  e_narrow : Z -> Z -> Z;                       (* rounding, a *)
  e_ecall : st -> st
}.

(** ** Integer arithmetic of the processor *)
Definition divs (a b : Z) : Z := if b =? 0 then -1 else Z.quot a b.
Definition rems (a b : Z) : Z := if b =? 0 then a else Z.rem a b.
Definition alu (o : op3) (a b : Z) : Z :=
  match o with
  | ADD => sx 64 (a + b)   | ADDW => sx 32 (a + b)
  | SUB => sx 64 (a - b)   | SUBW => sx 32 (a - b)
  | MUL => sx 64 (a * b)   | MULW => sx 32 (a * b)
  | DIV => sx 64 (divs a b)
  | DIVU => sx 64 (divs (ux 64 a) (ux 64 b))
  | DIVW => sx 32 (divs (sx 32 a) (sx 32 b))
  | DIVUW => sx 32 (divs (ux 32 a) (ux 32 b))
  | REM => sx 64 (rems a b)
  | REMU => sx 64 (rems (ux 64 a) (ux 64 b))
  | REMW => sx 32 (rems (sx 32 a) (sx 32 b))
  | REMUW => sx 32 (rems (ux 32 a) (ux 32 b))
  | AND => Z.land a b | OR => Z.lor a b | XOR => Z.lxor a b
  | SLL => sx 64 (a * 2 ^ ux 6 b)
  | SLLW => sx 32 (a * 2 ^ ux 5 b)
  | SRL => sx 64 (ux 64 a / 2 ^ ux 6 b)
  | SRLW => sx 32 (ux 32 a / 2 ^ ux 5 b)
  | SRA => a / 2 ^ ux 6 b
  | SRAW => sx 32 a / 2 ^ ux 5 b
  | SLT => if a <? b then 1 else 0
  | SLTU => if ux 64 a <? ux 64 b then 1 else 0
  end.

Definition ldval (o : ldop) (m : Z -> Z) (a : Z) : Z :=
  match o with
  | LB => sx 8 (load 1 m a) | LH => sx 16 (load 2 m a)
  | LW => sx 32 (load 4 m a) | LD => sx 64 (load 8 m a)
  | LBU => load 1 m a | LHU => load 2 m a | LWU => load 4 m a
  end.
Definition sdsize (o : sdop) : Z :=
  match o with SB => 1 | SH => 2 | SW => 4 | SD => 8 end.
Definition taken (o : brop) (a b : Z) : bool :=
  match o with
  | BEQ => a =? b | BNE => negb (a =? b)
  | BLT => a <? b | BGE => b <=? a
  | BLTU => ux 64 a <? ux 64 b | BGEU => ux 64 b <=? ux 64 a
  end.

(** A single-precision value sits in the low half of a register whose high
    half is all ones; anything else reads as the standard NaN. *)
Definition box (v : Z) : Z := v mod 2 ^ 32 + (2 ^ 32 - 1) * 2 ^ 32.
Definition unbox (r : Z) : Z :=
  if r / 2 ^ 32 =? 2 ^ 32 - 1 then r mod 2 ^ 32 else 0x7fc00000.

(** sign injection on [n]-bit patterns: the magnitude of [a] with the sign of
    [b], its negation, or the product of the signs *)
Definition sgnj (o : f3op) (n a b : Z) : Z :=
  let sa := Z.testbit a (n - 1) in
  let sb := Z.testbit b (n - 1) in
  let sg := match o with FSGNJ => sb | FSGNJN => negb sb | _ => xorb sa sb end in
  a mod 2 ^ (n - 1) + (if sg then 2 ^ (n - 1) else 0).

(** the rounding mode of an instruction: 7 stands for the current one *)
Definition rmode (s : st) (rm : Z) : Z := if rm =? 7 then frm s else rm.

(** ** Decoded instructions and their effect *)
Inductive instr :=
| IOp (o : op3) (rd rs1 rs2 : Z)
| IOpI (o : op3) (rd rs1 imm : Z)
| ILui (rd imm : Z)
| IAuipc (rd imm : Z)
| ILoad (o : ldop) (rd rs1 imm : Z)
| IStore (o : sdop) (rs2 rs1 imm : Z)
| IJal (rd off : Z)
| IJalr (rd rs1 imm : Z)
| IBr (o : brop) (rs1 rs2 off : Z)
| IEcall
| IFop (o : f3op) (d : bool) (rm rd rs1 rs2 : Z)    (* FADD .. FDIV *)
| IFsgnj (o : f3op) (d : bool) (rd rs1 rs2 : Z)     (* FSGNJ .. FSGNJX *)
| IFsqrt (d : bool) (rm rd rs1 : Z)
| IFcmp (o : fcmp) (d : bool) (rd rs1 rs2 : Z)
| IFload (d : bool) (rd rs1 imm : Z)
| IFstore (d : bool) (rs2 rs1 imm : Z)
| ICvtFI (o : icv) (d : bool) (rm rd rs1 : Z)       (* integer to float *)
| ICvtIF (o : icv) (d : bool) (rm rd rs1 : Z)       (* float to integer *)
| ICvtDS (rd rs1 : Z)
| ICvtSD (rm rd rs1 : Z)
| IFmvX (d : bool) (rd rs1 : Z).

(** which conversions from integers never round: a 32-bit integer is exact in
    double precision, so the rounding field is ignored *)
Definition exact (o : icv) (d : bool) : bool :=
  match o, d with CW, true | CWU, true => true | _, _ => false end.
Definition ofint (E : env) (o : icv) (d : bool) (rm v : Z) : Z :=
  e_ofint E o d (if exact o d then 0 else rm) v.

(** The effect of one instruction of [len] bytes. *)
Definition exec (E : env) (i : instr) (len : Z) (s : st) : st :=
  let next t := setpc t (pc s + len) in
  match i with
  | IOp o rd a b => next (setx s rd (alu o (getx s a) (getx s b)))
  | IOpI o rd a imm => next (setx s rd (alu o (getx s a) imm))
  | ILui rd imm => next (setx s rd imm)
  | IAuipc rd imm => next (setx s rd (sx 64 (pc s + imm)))
  | ILoad o rd a imm => next (setx s rd (ldval o (mem s) (getx s a + imm)))
  | IStore o b a imm =>
      next (setmem s (sdsize o) (getx s a + imm) (getx s b))
  | IJal rd off => setpc (setx s rd (sx 64 (pc s + len))) (pc s + off)
  | IJalr rd a imm =>
      setpc (setx s rd (sx 64 (pc s + len)))
            (getx s a + imm - (getx s a + imm) mod 2)
  | IBr o a b off =>
      if taken o (getx s a) (getx s b) then setpc s (pc s + off) else next s
  | IEcall => next (e_ecall E s)
  | IFop o d rm rd a b =>
      next (setf s rd (e_arith E o d (rmode s rm) (fr s a) (fr s b)))
  | IFsgnj o d rd a b =>
      next (setf s rd (if d then sgnj o 64 (fr s a) (fr s b)
                       else box (sgnj o 32 (unbox (fr s a)) (unbox (fr s b)))))
  | IFsqrt d rm rd a => next (setf s rd (e_sqrt E d (rmode s rm) (fr s a)))
  | IFcmp o d rd a b =>
      next (setx s rd (if e_cmp E o d (fr s a) (fr s b) then 1 else 0))
  | IFload d rd a imm =>
      next (setf s rd (if d then load 8 (mem s) (getx s a + imm)
                       else box (load 4 (mem s) (getx s a + imm))))
  | IFstore d b a imm =>
      next (setmem s (if d then 8 else 4) (getx s a + imm) (fr s b))
  | ICvtFI o d rm rd a => next (setf s rd (ofint E o d (rmode s rm) (getx s a)))
  | ICvtIF o d rm rd a =>
      next (setx s rd (e_toint E o d (rmode s rm) (fr s a)))
  | ICvtDS rd a => next (setf s rd (e_widen E (fr s a)))
  | ICvtSD rm rd a => next (setf s rd (e_narrow E (rmode s rm) (fr s a)))
  | IFmvX d rd a =>
      next (setx s rd (if d then sx 64 (fr s a) else sx 32 (fr s a)))
  end.

(** ** Decoding: 32-bit instructions (manual, "RV32/64G Instruction Set
    Listings") *)

Definition iimm (w : Z) : Z := sx 12 (fld w 20 12).
Definition simm (w : Z) : Z := sx 12 (fld w 25 7 * 32 + fld w 7 5).
Definition bimm (w : Z) : Z :=
  sx 13 (fld w 31 1 * 4096 + fld w 7 1 * 2048 + fld w 25 6 * 32 + fld w 8 4 * 2).
Definition uimm (w : Z) : Z := sx 32 (fld w 12 20 * 4096).
Definition jimm (w : Z) : Z :=
  sx 21 (fld w 31 1 * 1048576 + fld w 12 8 * 4096 + fld w 20 1 * 2048
         + fld w 21 10 * 2).

Definition dec_op (f7 f3 : Z) : option op3 :=
  if f7 =? 0 then
    match f3 with
    | 0 => Some ADD | 1 => Some SLL | 2 => Some SLT | 3 => Some SLTU
    | 4 => Some XOR | 5 => Some SRL | 6 => Some OR | _ => Some AND
    end
  else if f7 =? 32 then
    match f3 with 0 => Some SUB | 5 => Some SRA | _ => None end
  else if f7 =? 1 then
    match f3 with
    | 0 => Some MUL | 4 => Some DIV | 5 => Some DIVU | 6 => Some REM
    | 7 => Some REMU | _ => None
    end
  else None.
Definition dec_op32 (f7 f3 : Z) : option op3 :=
  if f7 =? 0 then
    match f3 with 0 => Some ADDW | 1 => Some SLLW | 5 => Some SRLW | _ => None end
  else if f7 =? 32 then
    match f3 with 0 => Some SUBW | 5 => Some SRAW | _ => None end
  else if f7 =? 1 then
    match f3 with
    | 0 => Some MULW | 4 => Some DIVW | 5 => Some DIVUW | 6 => Some REMW
    | 7 => Some REMUW | _ => None
    end
  else None.
Definition dec_imm (w rd rs1 f3 : Z) : option instr :=
  match f3 with
  | 0 => Some (IOpI ADD rd rs1 (iimm w))
  | 1 => if fld w 26 6 =? 0 then Some (IOpI SLL rd rs1 (fld w 20 6)) else None
  | 2 => Some (IOpI SLT rd rs1 (iimm w))
  | 3 => Some (IOpI SLTU rd rs1 (iimm w))
  | 4 => Some (IOpI XOR rd rs1 (iimm w))
  | 5 => if fld w 26 6 =? 0 then Some (IOpI SRL rd rs1 (fld w 20 6))
         else if fld w 26 6 =? 16 then Some (IOpI SRA rd rs1 (fld w 20 6))
         else None
  | 6 => Some (IOpI OR rd rs1 (iimm w))
  | _ => Some (IOpI AND rd rs1 (iimm w))
  end.
Definition dec_imm32 (w rd rs1 f3 : Z) : option instr :=
  match f3 with
  | 0 => Some (IOpI ADDW rd rs1 (iimm w))
  | 1 => if fld w 25 7 =? 0 then Some (IOpI SLLW rd rs1 (fld w 20 5)) else None
  | 5 => if fld w 25 7 =? 0 then Some (IOpI SRLW rd rs1 (fld w 20 5))
         else if fld w 25 7 =? 32 then Some (IOpI SRAW rd rs1 (fld w 20 5))
         else None
  | _ => None
  end.
Definition dec_load (f3 : Z) : option ldop :=
  match f3 with
  | 0 => Some LB | 1 => Some LH | 2 => Some LW | 3 => Some LD
  | 4 => Some LBU | 5 => Some LHU | 6 => Some LWU | _ => None
  end.
Definition dec_store (f3 : Z) : option sdop :=
  match f3 with
  | 0 => Some SB | 1 => Some SH | 2 => Some SW | 3 => Some SD | _ => None
  end.
Definition dec_br (f3 : Z) : option brop :=
  match f3 with
  | 0 => Some BEQ | 1 => Some BNE | 4 => Some BLT | 5 => Some BGE
  | 6 => Some BLTU | 7 => Some BGEU | _ => None
  end.
Definition dec_cv (rs2 : Z) : option icv :=
  match rs2 with
  | 0 => Some CW | 1 => Some CWU | 2 => Some CL | 3 => Some CLU | _ => None
  end.
(** rounding modes 5 and 6 are reserved *)
Definition rm_ok (rm : Z) : bool := negb (rm =? 5) && negb (rm =? 6).

(** floating-point operations: the low two bits of the seven-bit function are
    the width, 0 for single and 1 for double *)
Definition dec_fp (f7 rs2 rs1 f3 rd : Z) : option instr :=
  if negb (f7 mod 4 <? 2) then None else
  let d := f7 mod 4 =? 1 in
  let rounded i := if rm_ok f3 then Some i else None in
  match f7 / 4 with
  | 0 => rounded (IFop FADD d f3 rd rs1 rs2)
  | 1 => rounded (IFop FSUB d f3 rd rs1 rs2)
  | 2 => rounded (IFop FMUL d f3 rd rs1 rs2)
  | 3 => rounded (IFop FDIV d f3 rd rs1 rs2)
  | 4 => match f3 with
         | 0 => Some (IFsgnj FSGNJ d rd rs1 rs2)
         | 1 => Some (IFsgnj FSGNJN d rd rs1 rs2)
         | 2 => Some (IFsgnj FSGNJX d rd rs1 rs2)
         | _ => None
         end
  | 8 => if d then (if rs2 =? 0 then rounded (ICvtDS rd rs1) else None)
         else if rs2 =? 1 then rounded (ICvtSD f3 rd rs1) else None
  | 11 => if rs2 =? 0 then rounded (IFsqrt d f3 rd rs1) else None
  | 20 => match f3 with
          | 0 => Some (IFcmp FLE d rd rs1 rs2)
          | 1 => Some (IFcmp FLT d rd rs1 rs2)
          | 2 => Some (IFcmp FEQ d rd rs1 rs2)
          | _ => None
          end
  | 24 => match dec_cv rs2 with
          | Some o => rounded (ICvtIF o d f3 rd rs1) | None => None end
  | 26 => match dec_cv rs2 with
          | Some o => rounded (ICvtFI o d f3 rd rs1) | None => None end
  | 28 => if (rs2 =? 0) && (f3 =? 0) then Some (IFmvX d rd rs1) else None
  | _ => None
  end.

Definition omap {A B} (f : A -> B) (o : option A) : option B :=
  match o with Some a => Some (f a) | None => None end.

Definition decode32 (w : Z) : option instr :=
  let op := fld w 0 7 in
  let rd := fld w 7 5 in
  let f3 := fld w 12 3 in
  let rs1 := fld w 15 5 in
  let rs2 := fld w 20 5 in
  let f7 := fld w 25 7 in
  if op =? 0x37 then Some (ILui rd (uimm w))
  else if op =? 0x17 then Some (IAuipc rd (uimm w))
  else if op =? 0x6f then Some (IJal rd (jimm w))
  else if op =? 0x67 then
    if f3 =? 0 then Some (IJalr rd rs1 (iimm w)) else None
  else if op =? 0x63 then omap (fun o => IBr o rs1 rs2 (bimm w)) (dec_br f3)
  else if op =? 0x03 then omap (fun o => ILoad o rd rs1 (iimm w)) (dec_load f3)
  else if op =? 0x23 then omap (fun o => IStore o rs2 rs1 (simm w)) (dec_store f3)
  else if op =? 0x13 then dec_imm w rd rs1 f3
  else if op =? 0x1b then dec_imm32 w rd rs1 f3
  else if op =? 0x33 then omap (fun o => IOp o rd rs1 rs2) (dec_op f7 f3)
  else if op =? 0x3b then omap (fun o => IOp o rd rs1 rs2) (dec_op32 f7 f3)
  else if op =? 0x73 then if w =? 0x73 then Some IEcall else None
  else if op =? 0x07 then
    if f3 =? 2 then Some (IFload false rd rs1 (iimm w))
    else if f3 =? 3 then Some (IFload true rd rs1 (iimm w)) else None
  else if op =? 0x27 then
    if f3 =? 2 then Some (IFstore false rs2 rs1 (simm w))
    else if f3 =? 3 then Some (IFstore true rs2 rs1 (simm w)) else None
  else if op =? 0x53 then dec_fp f7 rs2 rs1 f3 rd
  else None.

(** ** Decoding: 16-bit instructions (manual, "C" extension, RV64C tables).
    Hints are decoded as the instruction they look like: they write to x0, or
    shift by zero, and so do nothing. *)

Definition ci6 (w : Z) : Z := fld w 12 1 * 32 + fld w 2 5.
Definition creg (w lo : Z) : Z := 8 + fld w lo 3.
Definition cl_w (w : Z) : Z := fld w 5 1 * 64 + fld w 10 3 * 8 + fld w 6 1 * 4.
Definition cl_d (w : Z) : Z := fld w 5 2 * 64 + fld w 10 3 * 8.
Definition cj (w : Z) : Z :=
  sx 12 (fld w 12 1 * 2048 + fld w 8 1 * 1024 + fld w 9 2 * 256 + fld w 6 1 * 128
         + fld w 7 1 * 64 + fld w 2 1 * 32 + fld w 11 1 * 16 + fld w 3 3 * 2).
Definition cb (w : Z) : Z :=
  sx 9 (fld w 12 1 * 256 + fld w 5 2 * 64 + fld w 2 1 * 32 + fld w 10 2 * 8
        + fld w 3 2 * 2).

Definition decode16_q0 (w : Z) : option instr :=
  let rd := creg w 2 in
  let rs := creg w 7 in
  match fld w 13 3 with
  | 0 => let imm := fld w 7 4 * 64 + fld w 11 2 * 16 + fld w 5 1 * 8
                    + fld w 6 1 * 4 in
         if imm =? 0 then None else Some (IOpI ADD rd 2 imm)
  | 1 => Some (IFload true rd rs (cl_d w))
  | 2 => Some (ILoad LW rd rs (cl_w w))
  | 3 => Some (ILoad LD rd rs (cl_d w))
  | 5 => Some (IFstore true rd rs (cl_d w))
  | 6 => Some (IStore SW rd rs (cl_w w))
  | 7 => Some (IStore SD rd rs (cl_d w))
  | _ => None
  end.

Definition decode16_q1 (w : Z) : option instr :=
  let rd := fld w 7 5 in
  let rd' := creg w 7 in
  let rs' := creg w 2 in
  match fld w 13 3 with
  | 0 => Some (IOpI ADD rd rd (sx 6 (ci6 w)))
  | 1 => if rd =? 0 then None else Some (IOpI ADDW rd rd (sx 6 (ci6 w)))
  | 2 => Some (IOpI ADD rd 0 (sx 6 (ci6 w)))
  | 3 => if rd =? 2 then
           let imm := fld w 12 1 * 512 + fld w 3 2 * 128 + fld w 5 1 * 64
                      + fld w 2 1 * 32 + fld w 6 1 * 16 in
           if imm =? 0 then None else Some (IOpI ADD 2 2 (sx 10 imm))
         else if ci6 w =? 0 then None
         else Some (ILui rd (sx 18 (ci6 w * 4096)))
  | 4 => match fld w 10 2 with
         | 0 => Some (IOpI SRL rd' rd' (ci6 w))
         | 1 => Some (IOpI SRA rd' rd' (ci6 w))
         | 2 => Some (IOpI AND rd' rd' (sx 6 (ci6 w)))
         | _ => if fld w 12 1 =? 0 then
                  match fld w 5 2 with
                  | 0 => Some (IOp SUB rd' rd' rs')
                  | 1 => Some (IOp XOR rd' rd' rs')
                  | 2 => Some (IOp OR rd' rd' rs')
                  | _ => Some (IOp AND rd' rd' rs')
                  end
                else
                  match fld w 5 2 with
                  | 0 => Some (IOp SUBW rd' rd' rs')
                  | 1 => Some (IOp ADDW rd' rd' rs')
                  | _ => None
                  end
         end
  | 5 => Some (IJal 0 (cj w))
  | 6 => Some (IBr BEQ rd' 0 (cb w))
  | _ => Some (IBr BNE rd' 0 (cb w))
  end.

Definition decode16_q2 (w : Z) : option instr :=
  let rd := fld w 7 5 in
  let rs := fld w 2 5 in
  match fld w 13 3 with
  | 0 => Some (IOpI SLL rd rd (ci6 w))
  | 1 => Some (IFload true rd 2 (fld w 2 3 * 64 + fld w 12 1 * 32 + fld w 5 2 * 8))
  | 2 => if rd =? 0 then None
         else Some (ILoad LW rd 2 (fld w 2 2 * 64 + fld w 12 1 * 32 + fld w 4 3 * 4))
  | 3 => if rd =? 0 then None
         else Some (ILoad LD rd 2 (fld w 2 3 * 64 + fld w 12 1 * 32 + fld w 5 2 * 8))
  | 4 => if fld w 12 1 =? 0 then
           if rs =? 0 then
             if rd =? 0 then None else Some (IJalr 0 rd 0)
           else Some (IOp ADD rd 0 rs)
         else if rs =? 0 then
           if rd =? 0 then None (* EBREAK *) else Some (IJalr 1 rd 0)
         else Some (IOp ADD rd rd rs)
  | 5 => Some (IFstore true rs 2 (fld w 7 3 * 64 + fld w 10 3 * 8))
  | 6 => Some (IStore SW rs 2 (fld w 7 2 * 64 + fld w 9 4 * 4))
  | _ => Some (IStore SD rs 2 (fld w 7 3 * 64 + fld w 10 3 * 8))
  end.

Definition decode16 (w : Z) : option instr :=
  match fld w 0 2 with
  | 0 => decode16_q0 w
  | 1 => decode16_q1 w
  | _ => decode16_q2 w
  end.

(** ** Running code *)

(** The next instruction of a byte string, its length, and what follows. *)
Definition fetch (c : list Z) : option (instr * Z * list Z) :=
  match c with
  | b0 :: b1 :: r =>
    let h := b0 + 256 * b1 in
    if h mod 4 =? 3 then
      match r with
      | b2 :: b3 :: r =>
        omap (fun i => (i, 4, r)) (decode32 (h + 65536 * b2 + 16777216 * b3))
      | _ => None
      end
    else omap (fun i => (i, 2, r)) (decode16 h)
  | _ => None
  end.

(** Execute the code at the current address, instruction after instruction;
    only the last instruction may jump.  [None]: some instruction is illegal,
    or one before the last leaves the sequence.  The fuel is the number of
    bytes, which is never short. *)
Fixpoint run_ (fuel : nat) (E : env) (c : list Z) (s : st) : option st :=
  match c with
  | [] => Some s
  | _ =>
    match fuel with
    | O => None
    | Datatypes.S fuel =>
      match fetch c with
      | None => None
      | Some (i, len, rest) =>
        let t := exec E i len s in
        match rest with
        | [] => Some t
        | _ => if pc t =? ux 64 (pc s + len) then run_ fuel E rest t else None
        end
      end
    end
  end.
Definition run (E : env) (c : list Z) (s : st) : option st :=
  run_ (length c) E c s.

(** ** What the assembler instructions mean *)

Definition alu_of (o : opi) : op3 :=
  match o with
  | ADDI => ADD | ADDIW => ADDW | ANDI => AND | ORI => OR | XORI => XOR
  | SLTI => SLT | SLTIU => SLTU | SLLI => SLL | SLLIW => SLLW
  | SRLI => SRL | SRLIW => SRLW | SRAI => SRA | SRAIW => SRAW
  end.
Definition un (o : op2) (a : Z) : Z :=
  match o with
  | NEG => sx 64 (- a)
  | NOT => -1 - a
  | SEXT_B => sx 8 a | SEXT_H => sx 16 a | SEXT_W => sx 32 a
  | ZEXT_B => ux 8 a | ZEXT_H => ux 16 a | ZEXT_W => ux 32 a
  | SEQZ => if a =? 0 then 1 else 0
  | SNEZ => if a =? 0 then 0 else 1
  | SLTZ => if a <? 0 then 1 else 0
  | SGTZ => if 0 <? a then 1 else 0
  end.

(** [len]: how many bytes the instruction takes *)
Definition means (E : env) (a : asm) (len : Z) (s : st) : st :=
  let next t := setpc t (pc s + len) in
  match a with
  | ANoop => next s
  | A3 o rd r1 r2 => next (setx s rd (alu o (getx s r1) (getx s r2)))
  | AI o rd rs imm => next (setx s rd (alu (alu_of o) (getx s rs) imm))
  | A2 o rd rs => next (setx s rd (un o (getx s rs)))
  | AMv rd rs => next (setx s rd (getx s rs))
  | ALi rd imm => next (setx s rd imm)
  | ALa rd => next (setx s rd (sx 64 (pc s)))
  | ALuis rd => next (setx s rd 0)
  | AAddis rd => next s
  | ALd o rd ofs rs => next (setx s rd (ldval o (mem s) (getx s rs + ofs)))
  | ASd o rs2 ofs rs1 =>
      next (setmem s (sdsize o) (getx s rs1 + ofs) (getx s rs2))
  | AJ imm => setpc s (pc s + imm)
  | AJr rs => setpc s (getx s rs - getx s rs mod 2)
  | AJalr rs => setpc (setx s 1 (sx 64 (pc s + len))) (getx s rs - getx s rs mod 2)
  | ABr o r1 r2 ofs =>
      if taken o (getx s r1) (getx s r2) then setpc s (pc s + ofs) else next s
  | ACall ofs => setpc (setx s 1 (sx 64 (pc s + len))) (pc s + ofs)
  | ARet => setpc s (getx s 1 - getx s 1 mod 2)
  | AEcall => next (e_ecall E s)
  | AF3 o d rd a b =>
      next (setf s rd
        match o with
        | FADD | FSUB | FMUL | FDIV => e_arith E o d (frm s) (fr s a) (fr s b)
        | _ => if d then sgnj o 64 (fr s a) (fr s b)
               else box (sgnj o 32 (unbox (fr s a)) (unbox (fr s b)))
        end)
  | AF2 o d rd a =>
      next (setf s rd
        match o with
        | FSQRT => e_sqrt E d (frm s) (fr s a)
        | FMV => if d then fr s a else box (unbox (fr s a))
        | FNEG => if d then Z.lxor (fr s a) (2 ^ 63)
                  else box (Z.lxor (unbox (fr s a)) (2 ^ 31))
        end)
  | AFcvtDS rd a => next (setf s rd (e_widen E (fr s a)))
  | AFcvtSD rd a => next (setf s rd (e_narrow E (frm s) (fr s a)))
  | AFcmp o d rd a b =>
      next (setx s rd (if e_cmp E o d (fr s a) (fr s b) then 1 else 0))
  | AFld d rd ofs rs =>
      next (setf s rd (if d then load 8 (mem s) (getx s rs + ofs)
                       else box (load 4 (mem s) (getx s rs + ofs))))
  | AFsd d rs2 ofs rs1 =>
      next (setmem s (if d then 8 else 4) (getx s rs1 + ofs) (fr s rs2))
  | AFi o d rd rs => next (setf s rd (ofint E o d (frm s) (getx s rs)))
  | AIf o d rd rs rm =>
      next (setx s rd (e_toint E o d (rmode s rm) (fr s rs)))
  | AFmvX d rd rs =>
      next (setx s rd (if d then sx 64 (fr s rs) else sx 32 (fr s rs)))
  end.

(** ** The instructions covered *)

Definition reg (r : Z) : Prop := 0 <= r < 32.
Definition even_in (lo hi x : Z) : Prop := lo <= x < hi /\ x mod 2 = 0.

(** operands that exist: register numbers, 64-bit constants *)
Definition operands (a : asm) : Prop :=
  match a with
  | ANoop | ARet | AEcall => True
  | A3 _ a b c | AF3 _ _ a b c | AFcmp _ _ a b c => reg a /\ reg b /\ reg c
  | AI _ a b i => reg a /\ reg b /\ - 2 ^ 63 <= i < 2 ^ 63
  | A2 _ a b | AMv a b | AF2 _ _ a b | AFcvtDS a b | AFcvtSD a b
  | AFi _ _ a b | AFmvX _ a b => reg a /\ reg b
  | AIf _ _ a b rm => reg a /\ reg b /\ (0 <= rm <= 4 \/ rm = 7)
  | ALi a i => reg a /\ - 2 ^ 63 <= i < 2 ^ 63
  | ALa a | ALuis a | AAddis a | AJr a | AJalr a => reg a
  | ALd _ a i b | ASd _ a i b | AFld _ a i b | AFsd _ a i b =>
      reg a /\ reg b /\ - 2 ^ 63 <= i < 2 ^ 63
  | AJ i | ACall i => - 2 ^ 63 <= i < 2 ^ 63 /\ i mod 2 = 0
  | ABr _ a b i => reg a /\ reg b /\ - 2 ^ 63 <= i < 2 ^ 63 /\ i mod 2 = 0
  end.

(** a 4-byte store that the encoder puts at the wrong address *)
Definition bad_sw (o : sdop) (rs2 ofs rs1 : Z) : Prop :=
  o = SW /\ 0 <= ofs < 128 /\ ofs mod 8 = 4 /\ 8 <= rs1 <= 15 /\ 8 <= rs2 <= 15.

(** The conditions under which the encoding is right.  Each one is needed:
    see the [..._refuted] theorems. *)
Definition covered (a : asm) : Prop :=
  match a with
  (* adding x0 to the destination gives an indirect call *)
  | A3 ADD rd r1 r2 => ~ (rd = r1 /\ r2 = 0) /\ ~ (rd = r2 /\ r1 = 0)
  (* constants in range; a word operation needs a destination *)
  | AI o rd rs imm =>
      match o with
      | ADDI => -2048 <= imm < 2048
      | ADDIW => -2048 <= imm < 2048 /\ ~ (rd = 0 /\ rs = 0)
      | ANDI | ORI | XORI | SLTI | SLTIU => -2048 <= imm < 2048
      | SLLI | SRLI | SRAI => 0 <= imm < 64
      | SLLIW | SRLIW | SRAIW => 0 <= imm < 32
      end
  | A2 SEXT_W rd rs => ~ (rd = 0 /\ rs = 0)
  (* the stack pointer and x0 cannot be loaded with a constant *)
  | ALi rd _ => rd <> 0 /\ rd <> 2
  | ALd o rd ofs rs => -2048 <= ofs < 2048 /\ ~ (o = LD /\ rs = 2 /\ rd = 0)
  | ASd o rs2 ofs rs1 => -2048 <= ofs < 2048 /\ ~ bad_sw o rs2 ofs rs1
  | AFld _ _ ofs _ | AFsd _ _ ofs _ => -2048 <= ofs < 2048
  | AJ imm => - 2 ^ 20 <= imm < 2 ^ 20
  | ABr _ _ _ ofs => -4096 <= ofs < 4096
  | AJr rs | AJalr rs => rs <> 0
  (* the offset is not rounded: its bit 11 must be clear *)
  | ACall ofs => - 2 ^ 31 <= ofs < 2 ^ 31 /\ ofs mod 4096 < 2048
  | _ => True
  end.
