(** What arm64 machine code does, and what each assembler instruction means.

    The first part is written from the Arm Architecture Reference Manual (A64,
    the instructions a compiler of integer and scalar floating-point code
    uses): how a 32-bit word is decoded, and its effect.  None of it comes from
    the encoder.  The second part says what the assembler's mnemonics mean.

    The arithmetic of floating-point numbers and the effect of a system call
    are left open: they are the fields of [env], and every theorem holds for
    all of them.  Left out: the upper halves of the vector registers (every
    write of a scalar clears them), the floating-point status flags, and the
    alignment check of the stack pointer. *)
From Coq Require Import ZArith List Bool Lia.
From Verif Require Import Base Arm_model.
Import ListNotations.
Open Scope Z_scope.

(** ** Numbers *)

(** [n]-bit two's complement *)
Definition sx (n v : Z) : Z := (v + 2 ^ (n - 1)) mod 2 ^ n - 2 ^ (n - 1).
Definition ux (n v : Z) : Z := v mod 2 ^ n.
(** bits [lo], ..., [lo+n-1] of [w] *)
Definition fld (w lo n : Z) : Z := (w / 2 ^ lo) mod 2 ^ n.
(** the size in bits of an operand: 64 for an x register, 32 for a w register *)
Definition ds (x : bool) : Z := if x then 64 else 32.

(** ** Machine state *)
Record flags := Flags { fn : bool; fz : bool; fc : bool; fv : bool }.
Record st := St {
  pc : Z;             (* address of the current instruction *)
  xr : Z -> Z;        (* x0 .. x30, as numbers in [0, 2^64) *)
  spv : Z;            (* the stack pointer *)
  vr : Z -> Z;        (* the low 64 bits of v0 .. v31 *)
  nzcv : flags;       (* the condition flags *)
  mem : Z -> Z;       (* bytes, by address *)
  sys : Z -> Z        (* system registers, by o0:op1:CRn:CRm:op2 *)
}.
Definition setx (s : st) (r v : Z) : st :=
  St (pc s) (fun k => if k =? r then v else xr s k) (spv s) (vr s) (nzcv s) (mem s) (sys s).
Definition setsp (s : st) (v : Z) : st :=
  St (pc s) (xr s) v (vr s) (nzcv s) (mem s) (sys s).
Definition setv (s : st) (r v : Z) : st :=
  St (pc s) (xr s) (spv s) (fun k => if k =? r then v else vr s k) (nzcv s) (mem s) (sys s).
Definition setnzcv (s : st) (f : flags) : st :=
  St (pc s) (xr s) (spv s) (vr s) f (mem s) (sys s).
Definition setpc (s : st) (p : Z) : st :=
  St (ux 64 p) (xr s) (spv s) (vr s) (nzcv s) (mem s) (sys s).
Definition setmem (s : st) (m : Z -> Z) : st :=
  St (pc s) (xr s) (spv s) (vr s) (nzcv s) m (sys s).

(** addresses wrap at 2^64; numbers in memory are little-endian *)
Fixpoint load_ (n : nat) (m : Z -> Z) (a : Z) : Z :=
  match n with
  | O => 0
  | Datatypes.S n => m (ux 64 a) mod 256 + 256 * load_ n m (a + 1)
  end.
Definition load (n : Z) (m : Z -> Z) (a : Z) : Z := load_ (Z.to_nat n) m a.
Definition store (n : Z) (m : Z -> Z) (a v : Z) : Z -> Z :=
  fun k => let i := ux 64 (k - a) in
           if i <? n then (v / 256 ^ i) mod 256 else m k.

(** two states nobody can tell apart *)
Definition same (s t : st) : Prop :=
  pc s = pc t /\ spv s = spv t /\ nzcv s = nzcv t /\
  (forall r, xr s r = xr t r) /\ (forall r, vr s r = vr t r) /\
  (forall a, mem s a = mem t a) /\ (forall r, sys s r = sys t r).

(** registers hold 64-bit numbers; instructions are at multiples of four *)
Definition wf (s : st) : Prop :=
  (forall r, 0 <= xr s r < 2 ^ 64) /\ 0 <= spv s < 2 ^ 64 /\
  (forall r, 0 <= vr s r < 2 ^ 64) /\
  0 <= pc s < 2 ^ 64 /\ pc s mod 4 = 0.

(** ** What is left open *)
Inductive fop := OAdd | OSub | OMul | ODiv.
Inductive ford := FLess | FEqual | FGreater | FUnordered.
Record env := Env {
  e_arith : fop -> bool -> Z -> Z -> Z;        (* operation, double?, a, b *)
  e_fma : bool -> Z -> Z -> Z -> Z;            (* double?, a, n, m: a + n * m *)
  e_sqrt : bool -> Z -> Z;
  e_cmp : bool -> Z -> Z -> ford;
  e_toint : bool -> bool -> bool -> Z -> Z;    (* signed?, x?, double?, v: towards zero *)
  e_ofint : bool -> bool -> bool -> Z -> Z;    (* signed?, x?, double?, v *)
  e_widen : Z -> Z;                            (* single to double *)
  e_narrow : Z -> Z;
  e_svc : Z -> st -> st
}.

(** ** Decoded instructions *)

(** Registers are numbers 0..31; what 31 stands for depends on the
    instruction. *)
Inductive movw := MovN | MovZ | MovK.
Inductive logop := LAnd | LOrr | LEor.
Inductive dp2 := UDiv | SDiv | LslV | LsrV | AsrV.
Inductive amode := MOff (o : Z) | MPre (o : Z) | MPost (o : Z).
Inductive instr :=
| IMovw (k : movw) (x : bool) (sh imm rd : Z)
| IAddImm (sub setf x : bool) (imm rn rd : Z)      (* 31: sp; zr for rd when setf *)
| IAddSh (sub setf x : bool) (sh amt rm rn rd : Z) (* 31: zr *)
| IAddExt (sub setf x : bool) (opt amt rm rn rd : Z)
| ILog (o : logop) (inv x : bool) (sh amt rm rn rd : Z)
| IAnds (inv x : bool) (sh amt rm rn rd : Z)
| IBfm (signed x : bool) (immr imms rn rd : Z)
| IMadd (sub x : bool) (rm ra rn rd : Z)
| IDp2 (o : dp2) (x : bool) (rm rn rd : Z)
| ICsinc (x : bool) (rm cond rn rd : Z)
| IAdr (page : bool) (imm rd : Z)
| IB (link : bool) (off : Z)
| IBcond (cond off : Z)
| ICb (nz x : bool) (off rt : Z)
| IBr (link : bool) (rn : Z)
| ISvc (imm : Z)
| IMrs (reg rt : Z)
| INop
| ILoad (n : Z) (ext : option bool) (m : amode) (rn rt : Z)
    (* [n] bytes; [ext]: [None] zero-extends, [Some x] sign-extends to x or w *)
| IStore (n : Z) (m : amode) (rn rt : Z)
| ILoadF (d : bool) (m : amode) (rn rt : Z)
| IStoreF (d : bool) (m : amode) (rn rt : Z)
| ILdp (x : bool) (m : amode) (rt2 rn rt : Z)
| IStp (x : bool) (m : amode) (rt2 rn rt : Z)
| ILdpF (d : bool) (m : amode) (rt2 rn rt : Z)
| IStpF (d : bool) (m : amode) (rt2 rn rt : Z)
| IFop (o : fop) (d : bool) (rm rn rd : Z)
| IFma (neg_a neg_n d : bool) (rm ra rn rd : Z)
| IFcmp (d : bool) (rm rn : Z)
| IFmov (d : bool) (rn rd : Z)
| IFneg (d : bool) (rn rd : Z)
| IFsqrt (d : bool) (rn rd : Z)
| IFcvt (to_d : bool) (rn rd : Z)
| IFmovG (d : bool) (rn rd : Z)                    (* from a general register *)
| IFmovI (d : bool) (imm8 rd : Z)
| IOfInt (signed x d : bool) (rn rd : Z)
| IToInt (signed x d : bool) (rn rd : Z).

(** ** Decoding (manual, "A64 instruction set encoding").  Encodings of other
    instructions, and those the manual calls unallocated, give [None]; so do
    loads and stores whose behaviour is "constrained unpredictable" (the base
    register is written back and is also transferred, or both registers of a
    pair load are the same). *)

Definition omap {A B} (f : A -> B) (o : option A) : option B :=
  match o with Some a => Some (f a) | None => None end.
Definition ofif {A} (b : bool) (a : A) : option A := if b then Some a else None.

Section Decode.
(** [f lo n]: the [n] bits of the word from bit [lo] on *)
Variable f : Z -> Z -> Z.
Definition d_x : bool := f 31 1 =? 1.
Definition d_rd : Z := f 0 5.
Definition d_rn : Z := f 5 5.
Definition d_rm : Z := f 16 5.

(** data processing, immediate *)
Definition dec_imm : option instr :=
  let k := f 23 3 in
  if (k =? 0) || (k =? 1) then
    Some (IAdr (f 31 1 =? 1) (sx 21 (f 5 19 * 4 + f 29 2)) d_rd)
  else if k =? 2 then
    Some (IAddImm (f 30 1 =? 1) (f 29 1 =? 1) d_x
            (if f 22 1 =? 1 then f 10 12 * 4096 else f 10 12) d_rn d_rd)
  else if k =? 5 then
    let sh := f 21 2 * 16 in
    if negb d_x && (32 <=? sh) then None else
    let o := f 29 2 in
    if o =? 0 then Some (IMovw MovN d_x sh (f 5 16) d_rd)
    else if o =? 2 then Some (IMovw MovZ d_x sh (f 5 16) d_rd)
    else if o =? 3 then Some (IMovw MovK d_x sh (f 5 16) d_rd)
    else None
  else if k =? 6 then
    let immr := f 16 6 in
    let imms := f 10 6 in
    if negb (f 22 1 =? f 31 1) then None
    else if negb d_x && ((32 <=? immr) || (32 <=? imms)) then None
    else
      let o := f 29 2 in
      if o =? 0 then Some (IBfm true d_x immr imms d_rn d_rd)
      else if o =? 2 then Some (IBfm false d_x immr imms d_rn d_rd)
      else None
  else None.

(** branches, exceptions and system instructions *)
Definition dec_branch : option instr :=
  let k := f 29 2 in
  if k =? 0 then Some (IB (f 31 1 =? 1) (4 * sx 26 (f 0 26)))
  else if k =? 1 then
    if f 25 1 =? 0 then Some (ICb (f 24 1 =? 1) d_x (4 * sx 19 (f 5 19)) d_rd)
    else None
  else if k =? 2 then
    if f 31 1 =? 0 then
      if (f 24 2 =? 0) && (f 4 1 =? 0) then Some (IBcond (f 0 4) (4 * sx 19 (f 5 19)))
      else None
    else if f 25 1 =? 1 then
      if (f 16 5 =? 31) && (f 10 6 =? 0) && (f 0 5 =? 0) then
        let o := f 21 4 in
        if o =? 0 then Some (IBr false d_rn)
        else if o =? 1 then Some (IBr true d_rn)
        else if o =? 2 then Some (IBr false d_rn)  (* RET *)
        else None
      else None
    else if f 24 1 =? 0 then
      if (f 21 3 =? 0) && (f 0 5 =? 1) then Some (ISvc (f 5 16)) else None
    else if f 20 4 =? 3 then Some (IMrs (f 5 15) d_rd)
    else if (f 12 12 =? 0x032) && (f 0 12 =? 0x01f) then Some INop
    else None
  else None.

(** data processing, register *)
Definition dec_reg : option instr :=
  let k := f 24 5 in
  if k =? 0x0a then
    let amt := f 10 6 in
    if negb d_x && (32 <=? amt) then None else
    let inv := f 21 1 =? 1 in
    let o := f 29 2 in
    if o =? 0 then Some (ILog LAnd inv d_x (f 22 2) amt d_rm d_rn d_rd)
    else if o =? 1 then Some (ILog LOrr inv d_x (f 22 2) amt d_rm d_rn d_rd)
    else if o =? 2 then Some (ILog LEor inv d_x (f 22 2) amt d_rm d_rn d_rd)
    else Some (IAnds inv d_x (f 22 2) amt d_rm d_rn d_rd)
  else if k =? 0x0b then
    let sub := f 30 1 =? 1 in
    let setf := f 29 1 =? 1 in
    if f 21 1 =? 0 then
      let amt := f 10 6 in
      if (f 22 2 =? 3) || (negb d_x && (32 <=? amt)) then None
      else Some (IAddSh sub setf d_x (f 22 2) amt d_rm d_rn d_rd)
    else if (f 22 2 =? 0) && (f 10 3 <=? 4) then
      Some (IAddExt sub setf d_x (f 13 3) (f 10 3) d_rm d_rn d_rd)
    else None
  else if k =? 0x1a then
    if negb (f 29 2 =? 0) then None
    else if f 21 3 =? 6 then
      let o := f 10 6 in
      if o =? 2 then Some (IDp2 UDiv d_x d_rm d_rn d_rd)
      else if o =? 3 then Some (IDp2 SDiv d_x d_rm d_rn d_rd)
      else if o =? 8 then Some (IDp2 LslV d_x d_rm d_rn d_rd)
      else if o =? 9 then Some (IDp2 LsrV d_x d_rm d_rn d_rd)
      else if o =? 10 then Some (IDp2 AsrV d_x d_rm d_rn d_rd)
      else None
    else if (f 21 3 =? 4) && (f 10 2 =? 1) then
      Some (ICsinc d_x d_rm (f 12 4) d_rn d_rd)
    else None
  else if k =? 0x1b then
    if (f 29 2 =? 0) && (f 21 3 =? 0) then
      Some (IMadd (f 15 1 =? 1) d_x d_rm (f 10 5) d_rn d_rd)
    else None
  else None.

(** loads and stores *)
Definition dec_mode (scale : Z) : option amode :=
  let k := f 24 2 in
  if k =? 1 then Some (MOff (f 10 12 * scale))
  else if (k =? 0) && (f 21 1 =? 0) then
    let o := sx 9 (f 12 9) in
    let i := f 10 2 in
    if i =? 0 then Some (MOff o)
    else if i =? 1 then Some (MPost o)
    else if i =? 3 then Some (MPre o)
    else None
  else None.
Definition dec_pmode (scale : Z) : option amode :=
  let o := sx 7 (f 15 7) * scale in
  let k := f 23 3 in
  if k =? 1 then Some (MPost o)
  else if k =? 2 then Some (MOff o)
  else if k =? 3 then Some (MPre o)
  else None.
Definition wback (m : amode) : bool := match m with MOff _ => false | _ => true end.
(** the transferred register is also the written-back base *)
Definition clash (m : amode) (rn rt : Z) : bool := wback m && (rn =? rt) && negb (rn =? 31).

Definition dec_single : option instr :=
  let size := f 30 2 in
  let opc := f 22 2 in
  match dec_mode (2 ^ size) with
  | None => None
  | Some m =>
    if f 26 1 =? 0 then
      if clash m d_rn d_rd then None
      else if opc =? 0 then Some (IStore (2 ^ size) m d_rn d_rd)
      else if opc =? 1 then Some (ILoad (2 ^ size) None m d_rn d_rd)
      else if opc =? 2 then
        if size =? 3 then None else Some (ILoad (2 ^ size) (Some true) m d_rn d_rd)
      else if 2 <=? size then None else Some (ILoad (2 ^ size) (Some false) m d_rn d_rd)
    else if size <? 2 then None
    else if opc =? 0 then Some (IStoreF (size =? 3) m d_rn d_rd)
    else if opc =? 1 then Some (ILoadF (size =? 3) m d_rn d_rd)
    else None
  end.

Definition dec_pair : option instr :=
  let opc := f 30 2 in
  let ld := f 22 1 =? 1 in
  let rt2 := f 10 5 in
  if f 26 1 =? 0 then
    if negb ((opc =? 0) || (opc =? 2)) then None else
    let x := opc =? 2 in
    match dec_pmode (if x then 8 else 4) with
    | None => None
    | Some m =>
      if clash m d_rn d_rd || clash m d_rn rt2 then None
      else if ld then
        if rt2 =? d_rd then None else Some (ILdp x m rt2 d_rn d_rd)
      else Some (IStp x m rt2 d_rn d_rd)
    end
  else
    if negb ((opc =? 0) || (opc =? 1)) then None else
    let d := opc =? 1 in
    match dec_pmode (if d then 8 else 4) with
    | None => None
    | Some m =>
      if ld then
        if rt2 =? d_rd then None else Some (ILdpF d m rt2 d_rn d_rd)
      else Some (IStpF d m rt2 d_rn d_rd)
    end.

Definition dec_mem : option instr :=
  let k := f 28 2 in
  if k =? 2 then dec_pair else if k =? 3 then dec_single else None.

(** scalar floating point *)
Definition dec_fp : option instr :=
  let d := f 22 2 =? 1 in
  if negb (f 22 2 <? 2) then None
  else if f 24 5 =? 0x1f then
    if negb (f 29 3 =? 0) then None
    else (* o1 negates both, o0 negates the product *)
      let o1 := f 21 1 =? 1 in
      let o0 := f 15 1 =? 1 in
      Some (IFma o1 (xorb o1 o0) d d_rm (f 10 5) d_rn d_rd)
  else if f 24 5 =? 0x1e then
    if negb (f 29 2 =? 0) || negb (f 21 1 =? 1) then None
    else if f 10 6 =? 0 then
      let rmode := f 19 2 in
      let o := f 16 3 in
      if rmode =? 0 then
        if o =? 2 then Some (IOfInt true d_x d d_rn d_rd)
        else if o =? 3 then Some (IOfInt false d_x d d_rn d_rd)
        else if o =? 7 then
          if Bool.eqb d_x d then Some (IFmovG d d_rn d_rd) else None
        else None
      else if rmode =? 3 then
        if o =? 0 then Some (IToInt true d_x d d_rn d_rd)
        else if o =? 1 then Some (IToInt false d_x d d_rn d_rd)
        else None
      else None
    else if f 31 1 =? 1 then None
    else if f 10 2 =? 2 then
      let o := f 12 4 in
      if o =? 0 then Some (IFop OMul d d_rm d_rn d_rd)
      else if o =? 1 then Some (IFop ODiv d d_rm d_rn d_rd)
      else if o =? 2 then Some (IFop OAdd d d_rm d_rn d_rd)
      else if o =? 3 then Some (IFop OSub d d_rm d_rn d_rd)
      else None
    else if f 10 5 =? 0x10 then
      let o := f 15 6 in
      if o =? 0 then Some (IFmov d d_rn d_rd)
      else if o =? 2 then Some (IFneg d d_rn d_rd)
      else if o =? 3 then Some (IFsqrt d d_rn d_rd)
      else if o =? 4 then (if d then Some (IFcvt false d_rn d_rd) else None)
      else if o =? 5 then (if d then None else Some (IFcvt true d_rn d_rd))
      else None
    else if f 10 4 =? 8 then
      if (f 14 2 =? 0) && (f 0 5 =? 0) then Some (IFcmp d d_rm d_rn) else None
    else if f 10 3 =? 4 then
      if f 5 5 =? 0 then Some (IFmovI d (f 13 8) d_rd) else None
    else None
  else None.

Definition dec_fields : option instr :=
  let k := f 25 4 in
  if (k =? 8) || (k =? 9) then dec_imm
  else if (k =? 10) || (k =? 11) then dec_branch
  else if (k =? 4) || (k =? 6) || (k =? 12) || (k =? 14) then dec_mem
  else if (k =? 5) || (k =? 13) then dec_reg
  else if (k =? 7) || (k =? 15) then dec_fp
  else None.
End Decode.
Definition decode (w : Z) : option instr := dec_fields (fld w).

(** ** Effects *)

(** general registers: 31 is the zero register, or the stack pointer *)
Definition rZ (s : st) (x : bool) (r : Z) : Z :=
  if r =? 31 then 0 else ux (ds x) (xr s r).
Definition rS (s : st) (x : bool) (r : Z) : Z :=
  if r =? 31 then ux (ds x) (spv s) else ux (ds x) (xr s r).
(** a w register is written with its upper half cleared *)
Definition wZ (s : st) (x : bool) (r v : Z) : st :=
  if r =? 31 then s else setx s r (ux (ds x) v).
Definition wS (s : st) (x : bool) (r v : Z) : st :=
  if r =? 31 then setsp s (ux (ds x) v) else setx s r (ux (ds x) v).
Definition rF (s : st) (d : bool) (r : Z) : Z := ux (ds d) (vr s r).
Definition wF (s : st) (d : bool) (r v : Z) : st := setv s r (ux (ds d) v).

(** shifts of an [n]-bit number: LSL, LSR, ASR, ROR *)
Definition shift (n k a amt : Z) : Z :=
  if k =? 0 then ux n (a * 2 ^ amt)
  else if k =? 1 then a / 2 ^ amt
  else if k =? 2 then ux n (sx n a / 2 ^ amt)
  else ux n (a / 2 ^ amt + a * 2 ^ (n - amt)).
(** UXTB UXTH UXTW UXTX SXTB SXTH SXTW SXTX *)
Definition extend (k v : Z) : Z :=
  let n := 8 * 2 ^ (k mod 4) in
  if k <? 4 then ux n v else sx n v.

(** AddWithCarry: the sum of two [n]-bit numbers and a carry, and the flags *)
Definition add_carry (n a b c : Z) : Z * flags :=
  let r := ux n (a + b + c) in
  (r, Flags (2 ^ (n - 1) <=? r) (r =? 0) (2 ^ n <=? a + b + c)
            (negb (sx n a + sx n b + c =? sx n r))).
Definition addsub (sub : bool) (n a b : Z) : Z * flags :=
  if sub then add_carry n a (2 ^ n - 1 - b) 1 else add_carry n a b 0.

(** condition codes: 0 EQ, 1 NE, 2 HS, 3 LO, 4 MI, 5 PL, 6 VS, 7 VC, 8 HI,
    9 LS, 10 GE, 11 LT, 12 GT, 13 LE, 14 and 15 always *)
Definition holds (c : Z) (f : flags) : bool :=
  let b :=
    let k := c / 2 in
    if k =? 0 then fz f
    else if k =? 1 then fc f
    else if k =? 2 then fn f
    else if k =? 3 then fv f
    else if k =? 4 then fc f && negb (fz f)
    else if k =? 5 then Bool.eqb (fn f) (fv f)
    else if k =? 6 then Bool.eqb (fn f) (fv f) && negb (fz f)
    else true in
  if (c mod 2 =? 1) && negb (c =? 15) then negb b else b.

(** bitfield move: "if imms >= immr, copies (imms-immr+1) bits from position
    immr to position 0; else copies (imms+1) bits from position 0 to position
    (size-immr)", with zeros or copies of the top bit above *)
Definition bfm (signed : bool) (n immr imms v : Z) : Z :=
  let ext k u := if signed then sx k u else ux k u in
  if immr <=? imms then ext (imms - immr + 1) (v / 2 ^ immr)
  else ext (imms + 1) v * 2 ^ (n - immr).

Definition divu (a b : Z) : Z := if b =? 0 then 0 else a / b.
Definition divs (a b : Z) : Z := if b =? 0 then 0 else Z.quot a b.
Definition dp2_val (o : dp2) (x : bool) (a b : Z) : Z :=
  let n := ds x in
  match o with
  | UDiv => divu a b
  | SDiv => divs (sx n a) (sx n b)
  | LslV => shift n 0 a (b mod n)
  | LsrV => shift n 1 a (b mod n)
  | AsrV => shift n 2 a (b mod n)
  end.
Definition log_val (o : logop) (a b : Z) : Z :=
  match o with LAnd => Z.land a b | LOrr => Z.lor a b | LEor => Z.lxor a b end.

(** the number that an 8-bit floating-point constant stands for: sign, three
    bits of exponent, four bits of fraction (VFPExpandImm) *)
Definition expand8 (d : bool) (i : Z) : Z :=
  let a := fld i 7 1 in
  let b := fld i 6 1 in
  let cd := fld i 4 2 in
  let efgh := fld i 0 4 in
  if d then a * 2 ^ 63 + (1 - b) * 2 ^ 62 + b * 255 * 2 ^ 54 + cd * 2 ^ 52 + efgh * 2 ^ 48
  else a * 2 ^ 31 + (1 - b) * 2 ^ 30 + b * 31 * 2 ^ 25 + cd * 2 ^ 23 + efgh * 2 ^ 19.

Definition fneg (d : bool) (v : Z) : Z := Z.lxor v (2 ^ (ds d - 1)).
Definition fcmp_flags (o : ford) : flags :=
  match o with
  | FLess => Flags true false false false
  | FEqual => Flags false true true false
  | FGreater => Flags false false true false
  | FUnordered => Flags false false true true
  end.

(** the address of a load or store, and the base afterwards *)
Definition maddr (m : amode) (b : Z) : Z :=
  match m with MOff o | MPre o => b + o | MPost _ => b end.
Definition mback (s : st) (m : amode) (rn b : Z) : st :=
  match m with MOff _ => s | MPre o | MPost o => wS s true rn (b + o) end.

Definition exec (E : env) (i : instr) (s : st) : st :=
  let next t := setpc t (pc s + 4) in
  match i with
  | IMovw k x sh imm rd =>
      let v := match k with
               | MovZ => imm * 2 ^ sh
               | MovN => - 1 - imm * 2 ^ sh
               | MovK => rZ s x rd - fld (rZ s x rd) sh 16 * 2 ^ sh + imm * 2 ^ sh
               end in
      next (wZ s x rd v)
  | IAddImm sub setf x imm rn rd =>
      let r := addsub sub (ds x) (rS s x rn) imm in
      next (if setf then setnzcv (wZ s x rd (fst r)) (snd r) else wS s x rd (fst r))
  | IAddSh sub setf x sh amt rm rn rd =>
      let r := addsub sub (ds x) (rZ s x rn) (shift (ds x) sh (rZ s x rm) amt) in
      next (if setf then setnzcv (wZ s x rd (fst r)) (snd r) else wZ s x rd (fst r))
  | IAddExt sub setf x opt amt rm rn rd =>
      let b := ux (ds x) (extend opt (rZ s x rm) * 2 ^ amt) in
      let r := addsub sub (ds x) (rS s x rn) b in
      next (if setf then setnzcv (wZ s x rd (fst r)) (snd r) else wS s x rd (fst r))
  | ILog o inv x sh amt rm rn rd =>
      let b := shift (ds x) sh (rZ s x rm) amt in
      let b := if inv then 2 ^ ds x - 1 - b else b in
      next (wZ s x rd (log_val o (rZ s x rn) b))
  | IAnds inv x sh amt rm rn rd =>
      let b := shift (ds x) sh (rZ s x rm) amt in
      let b := if inv then 2 ^ ds x - 1 - b else b in
      let r := Z.land (rZ s x rn) b in
      next (setnzcv (wZ s x rd r) (Flags (2 ^ (ds x - 1) <=? r) (r =? 0) false false))
  | IBfm signed x immr imms rn rd =>
      next (wZ s x rd (bfm signed (ds x) immr imms (rZ s x rn)))
  | IMadd sub x rm ra rn rd =>
      let p := rZ s x rn * rZ s x rm in
      next (wZ s x rd (if sub then rZ s x ra - p else rZ s x ra + p))
  | IDp2 o x rm rn rd => next (wZ s x rd (dp2_val o x (rZ s x rn) (rZ s x rm)))
  | ICsinc x rm c rn rd =>
      next (wZ s x rd (if holds c (nzcv s) then rZ s x rn else rZ s x rm + 1))
  | IAdr page imm rd =>
      next (wZ s true rd (if page then pc s - pc s mod 4096 + imm * 4096 else pc s + imm))
  | IB link off =>
      setpc (if link then setx s 30 (ux 64 (pc s + 4)) else s) (pc s + off)
  | IBcond c off => if holds c (nzcv s) then setpc s (pc s + off) else next s
  | ICb nz x off rt =>
      if Bool.eqb (rZ s x rt =? 0) (negb nz) then setpc s (pc s + off) else next s
  | IBr link rn =>
      setpc (if link then setx s 30 (ux 64 (pc s + 4)) else s) (rZ s true rn)
  | ISvc imm => next (e_svc E imm s)
  | IMrs r rt => next (wZ s true rt (sys s r))
  | INop => next s
  | ILoad n ext m rn rt =>
      let b := rS s true rn in
      let v := load n (mem s) (maddr m b) in
      let v := match ext with
               | None => v
               | Some x => ux (ds x) (sx (8 * n) v)
               end in
      next (mback (wZ s true rt v) m rn b)
  | IStore n m rn rt =>
      let b := rS s true rn in
      next (mback (setmem s (store n (mem s) (maddr m b) (rZ s true rt))) m rn b)
  | ILoadF d m rn rt =>
      let b := rS s true rn in
      next (mback (wF s d rt (load (ds d / 8) (mem s) (maddr m b))) m rn b)
  | IStoreF d m rn rt =>
      let b := rS s true rn in
      next (mback (setmem s (store (ds d / 8) (mem s) (maddr m b) (rF s d rt))) m rn b)
  | ILdp x m rt2 rn rt =>
      let b := rS s true rn in
      let a := maddr m b in
      let n := ds x / 8 in
      next (mback (wZ (wZ s x rt (load n (mem s) a)) x rt2 (load n (mem s) (a + n))) m rn b)
  | IStp x m rt2 rn rt =>
      let b := rS s true rn in
      let a := maddr m b in
      let n := ds x / 8 in
      next (mback (setmem s (store n (store n (mem s) a (rZ s x rt)) (a + n) (rZ s x rt2)))
                  m rn b)
  | ILdpF d m rt2 rn rt =>
      let b := rS s true rn in
      let a := maddr m b in
      let n := ds d / 8 in
      next (mback (wF (wF s d rt (load n (mem s) a)) d rt2 (load n (mem s) (a + n))) m rn b)
  | IStpF d m rt2 rn rt =>
      let b := rS s true rn in
      let a := maddr m b in
      let n := ds d / 8 in
      next (mback (setmem s (store n (store n (mem s) a (rF s d rt)) (a + n) (rF s d rt2)))
                  m rn b)
  | IFop o d rm rn rd => next (wF s d rd (e_arith E o d (rF s d rn) (rF s d rm)))
  | IFma na nn d rm ra rn rd =>
      let a := if na then fneg d (rF s d ra) else rF s d ra in
      let n := if nn then fneg d (rF s d rn) else rF s d rn in
      next (wF s d rd (e_fma E d a n (rF s d rm)))
  | IFcmp d rm rn => next (setnzcv s (fcmp_flags (e_cmp E d (rF s d rn) (rF s d rm))))
  | IFmov d rn rd => next (wF s d rd (rF s d rn))
  | IFneg d rn rd => next (wF s d rd (fneg d (rF s d rn)))
  | IFsqrt d rn rd => next (wF s d rd (e_sqrt E d (rF s d rn)))
  | IFcvt to_d rn rd =>
      next (wF s to_d rd (if to_d then e_widen E (rF s false rn)
                          else e_narrow E (rF s true rn)))
  | IFmovG d rn rd => next (wF s d rd (rZ s d rn))
  | IFmovI d imm8 rd => next (wF s d rd (expand8 d imm8))
  | IOfInt sg x d rn rd => next (wF s d rd (e_ofint E sg x d (rZ s x rn)))
  | IToInt sg x d rn rd => next (wZ s x rd (e_toint E sg x d (rF s d rn)))
  end.

(** Execute one word; [None]: illegal. *)
Definition run1 (E : env) (w : Z) (s : st) : option st :=
  omap (fun i => exec E i s) (decode w).

(** ** Assembler instructions *)

(** general registers by name: x0..x30 (or w0..w30), the zero register, sp *)
Inductive gpr := X (n : Z) | ZR | SP.
Definition gv (s : st) (x : bool) (g : gpr) : Z :=
  match g with X n => ux (ds x) (xr s n) | ZR => 0 | SP => ux (ds x) (spv s) end.
Definition put (s : st) (x : bool) (g : gpr) (v : Z) : st :=
  match g with
  | X n => setx s n (ux (ds x) v) | ZR => s | SP => setsp s (ux (ds x) v)
  end.

Inductive op3 := PMul | PSdiv | PUdiv | PAnd | POrr | PEor | PEon | PLsl | PLsr | PAsr.
Inductive shop := HLsl | HLsr | HAsr.
Inductive ldk := KB | KH | KW | KSB | KSH.     (* ldrb ldrh ldr ldrsb ldrsh *)
Inductive stk := TB | TH | TW.                 (* strb strh str *)
Inductive ext := EB | EH | EW.
(** [base, #off], [base, #off]!, [base], #off *)
Inductive wbk := WNone | WPre | WPost.

Inductive asm :=
| AMov (x : bool) (d n : gpr)
| AMovI (x : bool) (d : gpr) (imm : Z)
| AMovk (x : bool) (d : gpr) (imm sh : Z)
| AAdd (sub x : bool) (d n m : gpr)
| AAddE (sub x : bool) (d n m : gpr) (opt amt : Z)  (* uxtb .. sxtx #amt *)
| AAddS (sub x : bool) (d n m : gpr) (k : shop) (amt : Z)
| AAddI (sub x : bool) (d n : gpr) (imm : Z)
| AAddSym (sub x : bool) (d n : gpr) (off : Z)      (* left for the linker *)
| A3 (o : op3) (x : bool) (d n m : gpr)
| AMadd (sub x : bool) (d n m a : gpr)
| ACmp (neg x : bool) (n m : gpr)                   (* cmp; neg: cmn *)
| ACmpI (neg x : bool) (n : gpr) (imm : Z)
| AShI (k : shop) (x : bool) (d n : gpr) (imm : Z)
| ASxt (k : ext) (x : bool) (d n : gpr)
| AUxt (k : ext) (x : bool) (d n : gpr)
| AMvn (x : bool) (d n : gpr)
| ALd (k : ldk) (x : bool) (t base : gpr) (off : Z) (p : wbk)
| ALdSym (k : ldk) (x : bool) (t base : gpr)        (* left for the linker *)
| ASt (k : stk) (x : bool) (t base : gpr) (off : Z) (p : wbk)
| ALdp (x : bool) (t t2 base : gpr) (off : Z) (p : wbk)
| AStp (x : bool) (t t2 base : gpr) (off : Z) (p : wbk)
| AAdrp (d : gpr) (off : Z)                         (* left for the linker *)
| ACset (x : bool) (d : gpr) (cond : Z)
| AB (link sym : bool) (off : Z)
| ABcc (sym : bool) (cond off : Z)
| ACb (nz sym x : bool) (t : gpr) (off : Z)
| ABr (link : bool) (n : gpr)
| ARet
| ASvc (imm : Z)
| AMrs (d : gpr) (r : Z)
| ANop
| AFld (d : bool) (t : Z) (base : gpr) (off : Z) (p : wbk)
| AFst (d : bool) (t : Z) (base : gpr) (off : Z) (p : wbk)
| AFldp (d : bool) (t t2 : Z) (base : gpr) (off : Z) (p : wbk)
| AFstp (d : bool) (t t2 : Z) (base : gpr) (off : Z) (p : wbk)
| AFmov (d : bool) (rd rn : Z)
| AFmovG (d : bool) (rd : Z) (n : gpr)
| AFmovI (d : bool) (rd imm : Z)
| AF3 (o : fop) (d : bool) (rd rn rm : Z)
| AF4 (neg_a neg_p d : bool) (rd rn rm ra : Z)      (* fmadd fmsub fnmsub *)
| AFcmp (d : bool) (rn rm : Z)
| AFneg (d : bool) (rd rn : Z)
| AFsqrt (d : bool) (rd rn : Z)
| AFcvt (to_d : bool) (rd rn : Z)
| AOfInt (signed x d : bool) (rd : Z) (n : gpr)     (* scvtf, ucvtf *)
| AToInt (signed x d : bool) (rd : gpr) (n : Z).    (* fcvtzs, fcvtzu *)

(** How the code generator hands an instruction to the encoder. *)
Definition size_of (x : bool) : Z := if x then 8 else 4.
Definition greg (x : bool) (g : gpr) : reg :=
  match g with
  | X n => Reg false n (size_of x)
  | ZR => Reg false 31 (size_of x)
  | SP => Reg true 31 (size_of x)
  end.
Definition g_ (x : bool) (g : gpr) : operand := OReg (greg x g).
Definition f_ (d : bool) (n : Z) : operand := OFreg (Reg false n (size_of d)).
Definition pp_ (p : wbk) : Z := match p with WNone => 0 | WPre => 1 | WPost => 2 end.
Definition i_ (base : gpr) (off : Z) (p : wbk) : operand :=
  OInd (greg true base) off (pp_ p) false.
Definition t_ (sym : bool) (off : Z) : operand := if sym then OSym off else OImm off.

Definition shraw (k : shop) : raw := match k with HLsl => R_LSL | HLsr => R_LSR | HAsr => R_ASR end.
Definition render (a : asm) : raw * list operand :=
  match a with
  | AMov x d n => (R_MOV, [g_ x d; g_ x n])
  | AMovI x d imm => (R_MOV, [g_ x d; OImm imm])
  | AMovk x d imm sh => (R_MOVK, [g_ x d; OImm imm; OShift sh])
  | AAdd sub x d n m => (if sub then R_SUB else R_ADD, [g_ x d; g_ x n; g_ x m])
  | AAddE sub x d n m opt amt =>
      (if sub then R_SUB else R_ADD, [g_ x d; g_ x n; g_ x m; OExt opt amt])
  | AAddS sub x d n m k amt =>
      (if sub then R_SUB else R_ADD,
       [g_ x d; g_ x n; g_ x m;
        OExt (match k with HLsl => 8 | HLsr => 9 | HAsr => 10 end) amt])
  | AAddI sub x d n imm => (if sub then R_SUB else R_ADD, [g_ x d; g_ x n; OImm imm])
  | AAddSym sub x d n off => (if sub then R_SUB else R_ADD, [g_ x d; g_ x n; OSym off])
  | A3 o x d n m =>
      (match o with
       | PMul => R_MUL | PSdiv => R_SDIV | PUdiv => R_UDIV | PAnd => R_AND
       | POrr => R_ORR | PEor => R_EOR | PEon => R_EON
       | PLsl => R_LSL | PLsr => R_LSR | PAsr => R_ASR
       end, [g_ x d; g_ x n; g_ x m])
  | AMadd sub x d n m a => (if sub then R_MSUB else R_MADD, [g_ x d; g_ x n; g_ x m; g_ x a])
  | ACmp neg x n m => (if neg then R_CMN else R_CMP, [g_ x n; g_ x m])
  | ACmpI neg x n imm => (if neg then R_CMN else R_CMP, [g_ x n; OImm imm])
  | AShI k x d n imm => (shraw k, [g_ x d; g_ x n; OImm imm])
  | ASxt k x d n =>
      (match k with EB => R_SXTB | EH => R_SXTH | EW => R_SXTW end, [g_ x d; g_ false n])
  | AUxt k x d n =>
      (match k with EB => R_UXTB | EH => R_UXTH | EW => R_UXTW end, [g_ x d; g_ false n])
  | AMvn x d n => (R_MVN, [g_ x d; g_ x n])
  | ALd k x t base off p =>
      (match k with
       | KB => R_LDRB | KH => R_LDRH | KW => R_LDR | KSB => R_LDRSB | KSH => R_LDRSH
       end, [g_ x t; i_ base off p])
  | ALdSym k x t base =>
      (match k with
       | KB => R_LDRB | KH => R_LDRH | KW => R_LDR | KSB => R_LDRSB | KSH => R_LDRSH
       end, [g_ x t; OInd (greg true base) 0 0 true])
  | ASt k x t base off p =>
      (match k with TB => R_STRB | TH => R_STRH | TW => R_STR end, [g_ x t; i_ base off p])
  | ALdp x t t2 base off p => (R_LDP, [g_ x t; g_ x t2; i_ base off p])
  | AStp x t t2 base off p => (R_STP, [g_ x t; g_ x t2; i_ base off p])
  | AAdrp d off => (R_ADRP, [g_ true d; OSym off])
  | ACset x d c => (R_CSET, [g_ x d; OCond c])
  | AB link sym off => (if link then R_BL else R_B, [t_ sym off])
  | ABcc sym c off => (R_BCC c, [t_ sym off])
  | ACb nz sym x t off => (if nz then R_CBNZ else R_CBZ, [g_ x t; t_ sym off])
  | ABr link n => (if link then R_BLR else R_BR, [g_ true n])
  | ARet => (R_RET, [])
  | ASvc imm => (R_SVC, [OImm imm])
  | AMrs d r => (R_MRS, [g_ true d; OImm r])
  | ANop => (R_NOP, [])
  | AFld d t base off p => (R_LDR, [f_ d t; i_ base off p])
  | AFst d t base off p => (R_STR, [f_ d t; i_ base off p])
  | AFldp d t t2 base off p => (R_LDP, [f_ d t; f_ d t2; i_ base off p])
  | AFstp d t t2 base off p => (R_STP, [f_ d t; f_ d t2; i_ base off p])
  | AFmov d rd rn => (R_FMOV, [f_ d rd; f_ d rn])
  | AFmovG d rd n => (R_FMOV, [f_ d rd; g_ d n])
  | AFmovI d rd imm => (R_FMOV, [f_ d rd; OImm imm])
  | AF3 o d rd rn rm =>
      (match o with OAdd => R_FADD | OSub => R_FSUB | OMul => R_FMUL | ODiv => R_FDIV end,
       [f_ d rd; f_ d rn; f_ d rm])
  | AF4 na np d rd rn rm ra =>
      (if na then R_FNMSUB else if np then R_FMSUB else R_FMADD,
       [f_ d rd; f_ d rn; f_ d rm; f_ d ra])
  | AFcmp d rn rm => (R_FCMP, [f_ d rn; f_ d rm])
  | AFneg d rd rn => (R_FNEG, [f_ d rd; f_ d rn])
  | AFsqrt d rd rn => (R_FSQRT, [f_ d rd; f_ d rn])
  | AFcvt to_d rd rn => (R_FCVT, [f_ to_d rd; f_ (negb to_d) rn])
  | AOfInt sg x d rd n => (if sg then R_SCVTF else R_UCVTF, [f_ d rd; g_ x n])
  | AToInt sg x d rd n => (if sg then R_FCVTZS else R_FCVTZU, [g_ x rd; f_ d n])
  end.
Definition assemble (a : asm) : res Z := encode (fst (render a)) (snd (render a)).

(** ** What the assembler instructions mean *)

Definition ebits (k : ext) : Z := match k with EB => 8 | EH => 16 | EW => 32 end.
Definition shval (k : shop) (n a amt : Z) : Z :=
  match k with
  | HLsl => a * 2 ^ amt
  | HLsr => a / 2 ^ amt
  | HAsr => sx n a / 2 ^ amt
  end.
Definition op3_val (o : op3) (x : bool) (a b : Z) : Z :=
  let n := ds x in
  match o with
  | PMul => a * b
  | PSdiv => if b =? 0 then 0 else Z.quot (sx n a) (sx n b)
  | PUdiv => if b =? 0 then 0 else a / b
  | PAnd => Z.land a b
  | POrr => Z.lor a b
  | PEor => Z.lxor a b
  | PEon => Z.lxor a (2 ^ n - 1 - b)
  | PLsl => shval HLsl n a (b mod n)
  | PLsr => shval HLsr n a (b mod n)
  | PAsr => shval HAsr n a (b mod n)
  end.

(** the flags after comparing two [n]-bit numbers: the difference is negative,
    zero, does not borrow, and overflows as a signed number; and after adding *)
Definition cmp_flags (n a b : Z) : flags :=
  Flags (2 ^ (n - 1) <=? ux n (a - b)) (ux n (a - b) =? 0) (b <=? a)
        (negb (sx n a - sx n b =? sx n (a - b))).
Definition cmn_flags (n a b : Z) : flags :=
  Flags (2 ^ (n - 1) <=? ux n (a + b)) (ux n (a + b) =? 0) (2 ^ n <=? a + b)
        (negb (sx n a + sx n b =? sx n (a + b))).

Definition ld_size (k : ldk) (x : bool) : Z :=
  match k with KB | KSB => 1 | KH | KSH => 2 | KW => if x then 8 else 4 end.
Definition st_size (k : stk) (x : bool) : Z :=
  match k with TB => 1 | TH => 2 | TW => if x then 8 else 4 end.
Definition at_addr (p : wbk) (b off : Z) : Z := match p with WPost => b | _ => b + off end.
Definition back (s : st) (p : wbk) (base : gpr) (b off : Z) : st :=
  match p with WNone => s | _ => put s true base (b + off) end.

Definition means (E : env) (a : asm) (s : st) : st :=
  let next t := setpc t (pc s + 4) in
  let sum (sub : bool) u v : Z := if sub then u - v else u + v in
  match a with
  | AMov x d n => next (put s x d (gv s x n))
  | AMovI x d imm => next (put s x d imm)
  | AMovk x d imm sh =>
      let v := gv s x d in
      next (put s x d (v mod 2 ^ sh + imm * 2 ^ sh + v / 2 ^ (sh + 16) * 2 ^ (sh + 16)))
  | AAdd sub x d n m => next (put s x d (sum sub (gv s x n) (gv s x m)))
  | AAddE sub x d n m opt amt =>
      let v := if opt <? 4 then ux (8 * 2 ^ opt) (gv s x m)
               else sx (8 * 2 ^ (opt - 4)) (gv s x m) in
      next (put s x d (sum sub (gv s x n) (v * 2 ^ amt)))
  | AAddS sub x d n m k amt =>
      next (put s x d (sum sub (gv s x n) (shval k (ds x) (gv s x m) amt)))
  | AAddI sub x d n imm => next (put s x d (sum sub (gv s x n) imm))
  | AAddSym sub x d n off => next (put s x d (gv s x n))
  | A3 o x d n m => next (put s x d (op3_val o x (gv s x n) (gv s x m)))
  | AMadd sub x d n m a =>
      next (put s x d (sum sub (gv s x a) (gv s x n * gv s x m)))
  | ACmp neg x n m =>
      next (setnzcv s ((if neg then cmn_flags else cmp_flags) (ds x) (gv s x n) (gv s x m)))
  | ACmpI neg x n imm =>
      next (setnzcv s ((if neg then cmn_flags else cmp_flags) (ds x) (gv s x n) imm))
  | AShI k x d n imm => next (put s x d (shval k (ds x) (gv s x n) imm))
  | ASxt k x d n => next (put s x d (sx (ebits k) (gv s false n)))
  | AUxt k x d n => next (put s x d (ux (ebits k) (gv s false n)))
  | AMvn x d n => next (put s x d (- 1 - gv s x n))
  | ALd k x t base off p =>
      let b := gv s true base in
      let n := ld_size k x in
      let v := load n (mem s) (at_addr p b off) in
      let v := match k with KSB | KSH => sx (8 * n) v | _ => v end in
      next (back (put s x t v) p base b off)
  | ALdSym k x t base =>
      let n := ld_size k x in
      let v := load n (mem s) (gv s true base) in
      next (put s x t (match k with KSB | KSH => sx (8 * n) v | _ => v end))
  | ASt k x t base off p =>
      let b := gv s true base in
      next (back (setmem s (store (st_size k x) (mem s) (at_addr p b off) (gv s x t)))
                 p base b off)
  | ALdp x t t2 base off p =>
      let b := gv s true base in
      let a := at_addr p b off in
      let n := size_of x in
      next (back (put (put s x t (load n (mem s) a)) x t2 (load n (mem s) (a + n)))
                 p base b off)
  | AStp x t t2 base off p =>
      let b := gv s true base in
      let a := at_addr p b off in
      let n := size_of x in
      next (back (setmem s (store n (store n (mem s) a (gv s x t)) (a + n) (gv s x t2)))
                 p base b off)
  | AAdrp d off => next (put s true d (pc s - pc s mod 4096))
  | ACset x d c => next (put s x d (if holds c (nzcv s) then 1 else 0))
  | AB link _ off => setpc (if link then setx s 30 (ux 64 (pc s + 4)) else s) (pc s + off)
  | ABcc _ c off => if holds c (nzcv s) then setpc s (pc s + off) else next s
  | ACb nz _ x t off =>
      if (if nz then negb (gv s x t =? 0) else gv s x t =? 0)
      then setpc s (pc s + off) else next s
  | ABr link n =>
      setpc (if link then setx s 30 (ux 64 (pc s + 4)) else s) (gv s true n)
  | ARet => setpc s (xr s 30)
  | ASvc imm => next (e_svc E imm s)
  | AMrs d r => next (put s true d (sys s r))
  | ANop => next s
  | AFld d t base off p =>
      let b := gv s true base in
      next (back (wF s d t (load (size_of d) (mem s) (at_addr p b off))) p base b off)
  | AFst d t base off p =>
      let b := gv s true base in
      next (back (setmem s (store (size_of d) (mem s) (at_addr p b off) (rF s d t)))
                 p base b off)
  | AFldp d t t2 base off p =>
      let b := gv s true base in
      let a := at_addr p b off in
      let n := size_of d in
      next (back (wF (wF s d t (load n (mem s) a)) d t2 (load n (mem s) (a + n))) p base b off)
  | AFstp d t t2 base off p =>
      let b := gv s true base in
      let a := at_addr p b off in
      let n := size_of d in
      next (back (setmem s (store n (store n (mem s) a (rF s d t)) (a + n) (rF s d t2)))
                 p base b off)
  | AFmov d rd rn => next (wF s d rd (rF s d rn))
  | AFmovG d rd n => next (wF s d rd (gv s d n))
  | AFmovI d rd imm => next (wF s d rd (expand8 d imm))
  | AF3 o d rd rn rm => next (wF s d rd (e_arith E o d (rF s d rn) (rF s d rm)))
  | AF4 na np d rd rn rm ra =>
      let a := rF s d ra in
      let n := rF s d rn in
      next (wF s d rd (e_fma E d (if na then fneg d a else a) (if np then fneg d n else n)
                             (rF s d rm)))
  | AFcmp d rn rm => next (setnzcv s (fcmp_flags (e_cmp E d (rF s d rn) (rF s d rm))))
  | AFneg d rd rn => next (wF s d rd (fneg d (rF s d rn)))
  | AFsqrt d rd rn => next (wF s d rd (e_sqrt E d (rF s d rn)))
  | AFcvt to_d rd rn =>
      next (wF s to_d rd (if to_d then e_widen E (rF s false rn)
                          else e_narrow E (rF s true rn)))
  | AOfInt sg x d rd n => next (wF s d rd (e_ofint E sg x d (gv s x n)))
  | AToInt sg x d rd n => next (put s x rd (e_toint E sg x d (rF s d n)))
  end.

(** ** The instructions covered *)

(** a general register that exists, where the instruction allows the zero
    register, or allows the stack pointer *)
Definition zreg (g : gpr) : Prop :=
  match g with X n => 0 <= n <= 30 | ZR => True | SP => False end.
Definition sreg (g : gpr) : Prop :=
  match g with X n => 0 <= n <= 30 | ZR => False | SP => True end.
Definition anyreg (x : bool) (g : gpr) : Prop :=
  match g with X n => 0 <= n <= 30 | ZR => True | SP => x = true end.
Definition freg (r : Z) : Prop := 0 <= r <= 31.
Definition imm64 (v : Z) : Prop := - 2 ^ 63 <= v < 2 ^ 63.

(** operands that exist *)
Definition operands (a : asm) : Prop :=
  match a with
  | AMov x a b | ACmp _ x a b | AMvn x a b => anyreg x a /\ anyreg x b
  | AMovI x a v | ACmpI _ x a v => anyreg x a /\ imm64 v
  | AMovk x a v sh => anyreg x a /\ imm64 v /\ imm64 sh
  | AAdd _ x a b c | A3 _ x a b c => anyreg x a /\ anyreg x b /\ anyreg x c
  | AAddE _ x a b c o v =>
      anyreg x a /\ anyreg x b /\ anyreg x c /\ 0 <= o < 8 /\ imm64 v
  | AAddS _ x a b c _ v => anyreg x a /\ anyreg x b /\ anyreg x c /\ imm64 v
  | AAddI _ x a b v | AAddSym _ x a b v | AShI _ x a b v =>
      anyreg x a /\ anyreg x b /\ imm64 v
  | AMadd _ x a b c d => anyreg x a /\ anyreg x b /\ anyreg x c /\ anyreg x d
  | ASxt k x a b | AUxt k x a b =>
      anyreg x a /\ anyreg false b /\ (k = EW -> x = true)
  | ALd _ x t b v _ => anyreg x t /\ anyreg true b /\ imm64 v
  | ALdSym _ x t b => anyreg x t /\ anyreg true b
  | ASt k x t b v _ => anyreg x t /\ anyreg true b /\ imm64 v /\ (k <> TW -> x = false)
  | ALdp x t t2 b v _ | AStp x t t2 b v _ =>
      anyreg x t /\ anyreg x t2 /\ anyreg true b /\ imm64 v
  | AAdrp a v => anyreg true a /\ imm64 v
  | ACset x a c => anyreg x a /\ 0 <= c < 16
  | AB _ _ v => imm64 v
  | ABcc _ c v => 0 <= c < 16 /\ imm64 v
  | ACb _ _ x a v => anyreg x a /\ imm64 v
  | ABr _ a => anyreg true a
  | ARet | ANop => True
  | ASvc v => imm64 v
  | AMrs a v => anyreg true a /\ imm64 v
  | AFld _ t b v _ | AFst _ t b v _ => freg t /\ anyreg true b /\ imm64 v
  | AFldp _ t t2 b v _ | AFstp _ t t2 b v _ =>
      freg t /\ freg t2 /\ anyreg true b /\ imm64 v
  | AFmov _ a b | AFcmp _ a b | AFneg _ a b | AFsqrt _ a b | AFcvt _ a b =>
      freg a /\ freg b
  | AFmovG d a b => freg a /\ anyreg d b
  | AFmovI _ a v => freg a /\ imm64 v
  | AF3 _ _ a b c => freg a /\ freg b /\ freg c
  | AF4 na np _ a b c d => freg a /\ freg b /\ freg c /\ freg d /\ (na = true -> np = false)
  | AOfInt _ x _ a b => freg a /\ anyreg x b
  | AToInt _ x _ a b => anyreg x a /\ freg b
  end.

(** an address [base + off] that the load and store instructions can express *)
Definition addressable (size : Z) (base : gpr) (off : Z) (p : wbk) : Prop :=
  sreg base /\
  match p with
  | WNone => -256 <= off < 0 \/ (0 <= off <= 4095 /\ off mod size = 0)
  | _ => -256 <= off <= 255
  end.
Definition faddressable (size : Z) (base : gpr) (off : Z) (p : wbk) : Prop :=
  sreg base /\
  match p with
  | WNone => -256 <= off < 0 \/ (0 <= off <= 511 /\ off mod size = 0)
  | _ => -256 <= off <= 255
  end.
Definition distinct (p : wbk) (base t : gpr) : Prop := p = WNone \/ base <> t.

(** The conditions under which the encoding is right.  Each one excludes
    something the encoder gets wrong or refuses. *)
Definition covered (a : asm) : Prop :=
  match a with
  (* with sp the move is an addition, in which 31 is always sp *)
  | AMov x d n => (zreg d /\ zreg n) \/ (sreg d /\ sreg n)
  | AMovI x d imm => zreg d /\ - 2 ^ 16 <= imm < 2 ^ 16
  | AMovk x d imm sh =>
      zreg d /\ 0 <= imm < 2 ^ 16 /\ (sh = 0 \/ sh = 16 \/ (x = true /\ (sh = 32 \/ sh = 48)))
  | AAdd sub x d n m => zreg m /\ ((zreg d /\ zreg n) \/ (sreg d /\ sreg n))
  | AAddE sub x d n m opt amt => zreg m /\ sreg d /\ sreg n /\ 0 <= amt <= 4
  | AAddS sub x d n m k amt => zreg m /\ zreg d /\ zreg n /\ 0 <= amt < ds x
  | AAddI sub x d n imm => sreg d /\ sreg n /\ -4095 <= imm <= 4095
  | AAddSym sub x d n off => sreg d /\ sreg n
  | A3 o x d n m => zreg d /\ zreg n /\ zreg m
  | AMadd sub x d n m a => zreg d /\ zreg n /\ zreg m /\ zreg a
  | ACmp neg x n m => zreg n /\ zreg m
  | ACmpI neg x n imm => sreg n /\ 0 <= imm <= 4095
  | AShI k x d n imm => zreg d /\ zreg n /\ 0 <= imm < ds x
  | ASxt k x d n | AUxt k x d n => zreg d /\ zreg n
  (* the word always says "64 bits" *)
  | AMvn x d n => zreg d /\ zreg n /\ x = true
  (* byte loads, and sign-extending loads, only to w registers *)
  | ALd k x t base off p =>
      zreg t /\ addressable (ld_size k x) base off p /\ distinct p base t /\
      match k with KB | KSB | KSH => x = false | _ => True end
  | ALdSym k x t base =>
      zreg t /\ sreg base /\ match k with KB | KSB | KSH => x = false | _ => True end
  | ASt k x t base off p =>
      zreg t /\ addressable (st_size k x) base off p /\ distinct p base t
  (* offsets are divided by 8 for w registers too *)
  | ALdp x t t2 base off p =>
      zreg t /\ zreg t2 /\ t <> t2 /\ sreg base /\ distinct p base t /\ distinct p base t2 /\
      -512 <= off <= 511 /\ off mod 8 = 0 /\ (x = true \/ off = 0)
  | AStp x t t2 base off p =>
      zreg t /\ zreg t2 /\ sreg base /\ distinct p base t /\ distinct p base t2 /\
      -512 <= off <= 511 /\ off mod 8 = 0 /\ (x = true \/ off = 0)
  | AAdrp d off => zreg d
  (* "always" cannot be inverted *)
  | ACset x d c => zreg d /\ c < 14
  | AB _ _ off => - 2 ^ 27 <= off < 2 ^ 27 /\ off mod 4 = 0
  | ABcc _ _ off => - 2 ^ 20 <= off < 2 ^ 20 /\ off mod 4 = 0
  | ACb _ _ x t off => zreg t /\ - 2 ^ 20 <= off < 2 ^ 20 /\ off mod 4 = 0
  | ABr _ n => zreg n
  | ARet | ANop => True
  | ASvc imm => 0 <= imm < 2 ^ 16
  | AMrs d r => zreg d /\ 0 <= r < 2 ^ 15
  | AFld d t base off p | AFst d t base off p => faddressable (size_of d) base off p
  | AFldp d t t2 base off p =>
      t <> t2 /\ sreg base /\ -512 <= off <= 511 /\ off mod 8 = 0 /\ (d = true \/ off = 0)
  | AFstp d t t2 base off p =>
      sreg base /\ -512 <= off <= 511 /\ off mod 8 = 0 /\ (d = true \/ off = 0)
  | AFmov _ _ _ | AF3 _ _ _ _ _ | AF4 _ _ _ _ _ _ _ | AFcmp _ _ _ | AFneg _ _ _
  | AFsqrt _ _ _ | AFcvt _ _ _ => True
  | AFmovG d rd n => zreg n
  | AFmovI _ _ imm => 0 <= imm < 256
  | AOfInt _ _ _ _ n => zreg n
  | AToInt _ _ _ rd _ => zreg rd
  end.
