(** What amd64 machine code means: a decoder for the part of the instruction set
    the compiler uses, written from the processor manuals (instruction format,
    ModRM and SIB tables, opcode maps), and what an assembler instruction asks
    for.  Nothing here refers to the compiler's table or to how it writes bytes. *)
From Coq Require Import ZArith List Bool String.
From Verif Require Import Base Amd_model.
Import ListNotations.
Open Scope Z_scope.

(** ** Decoded instructions *)

(** An address: base + index * scale + displacement, or relative to the next
    instruction. *)
Inductive addr :=
| Abs (base : option Z) (index : option (Z * Z)) (disp : Z)
| Rip (disp : Z).

(** An operand: a general register of a width in bytes, the second byte of one of
    the first four registers, an xmm register, memory of a size in bytes, a
    number, or the distance of a jump. *)
Inductive xop :=
| XGpr (width n : Z)
| XHigh (n : Z)
| XXmm (n : Z)
| XMem (seg : option segm) (size : Z) (a : addr)
| XImm (v : Z)
| XRel (d : Z).

(** ** Numbers *)

(** little-endian number of some bytes, signed reading of [n] bytes *)
Fixpoint le_value (l : list Z) : Z :=
  match l with [] => 0 | b :: r => b + 256 * le_value r end.
Definition signed (n v : Z) : Z := if v <? 2 ^ (8 * n - 1) then v else v - 2 ^ (8 * n).

(** the first [n] elements and the others *)
Fixpoint take (n : nat) (l : list Z) : option (list Z * list Z) :=
  match n with
  | O => Some ([], l)
  | S n' =>
      match l with
      | [] => None
      | a :: r =>
          match take n' r with Some (x, y) => Some (a :: x, y) | None => None end
      end
  end.

(** ** Prefixes *)

(** Legacy prefixes seen, and the REX byte if it stands right before the opcode:
    a REX byte followed by another prefix is ignored. *)
Record prefs := P {
  p_66 : bool; p_f2 : bool; p_f3 : bool; p_seg : option segm;
  p_rex : option Z
}.
Definition no_prefix : prefs := P false false false None None.

Fixpoint prefixes (p : prefs) (l : list Z) : prefs * list Z :=
  match l with
  | [] => (p, l)
  | b :: r =>
      if b =? 0x66 then prefixes (P true (p_f2 p) (p_f3 p) (p_seg p) None) r
      else if b =? 0xF2 then prefixes (P (p_66 p) true (p_f3 p) (p_seg p) None) r
      else if b =? 0xF3 then prefixes (P (p_66 p) (p_f2 p) true (p_seg p) None) r
      else if b =? 0x64 then prefixes (P (p_66 p) (p_f2 p) (p_f3 p) (Some Fs) None) r
      else if b =? 0x65 then prefixes (P (p_66 p) (p_f2 p) (p_f3 p) (Some Gs) None) r
      else if b / 16 =? 4
      then prefixes (P (p_66 p) (p_f2 p) (p_f3 p) (p_seg p) (Some b)) r
      else (p, l)
  end.

(** the bits W R X B of the REX byte: 3, 2, 1, 0 *)
Definition rex_bit (p : prefs) (i : Z) : bool :=
  match p_rex p with Some b => Z.testbit b i | None => false end.
Definition ext_num (b : bool) (n : Z) : Z := if b then n + 8 else n.

(** ** Operand patterns and the opcode maps *)

(** Where an operand is: general register or memory given by ModRM.rm, general
    register in ModRM.reg, general register in the opcode, a number of [n] bytes
    sign-extended to a width, a number as it is, a jump distance, cl, xmm
    register in ModRM.reg, xmm register or memory in ModRM.rm, memory only. *)
Inductive pat :=
| PE (w : Z) | PG (w : Z) | PZ (w : Z)
| PImm (n w : Z) | PRaw (n : Z) | PRel (n : Z) | PCl
| PX | PXE (m : Z) | PMem (m : Z).

Local Open Scope string_scope.
Local Open Scope Z_scope.

(** arithmetic operations of opcodes 00-3F and of group 1 *)
Definition alu (n : Z) : option string :=
  match n with
  | 0 => Some "add" | 1 => Some "or" | 2 => Some "adc" | 3 => Some "sbb"
  | 4 => Some "and" | 5 => Some "sub" | 6 => Some "xor" | 7 => Some "cmp"
  | _ => None
  end.

(** conditions of 70-7F, 0F 80-8F, 0F 90-9F *)
Definition cond (n : Z) : option string :=
  match n with
  | 2 => Some "b" | 3 => Some "ae" | 4 => Some "e" | 5 => Some "ne"
  | 6 => Some "be" | 7 => Some "a" | 12 => Some "l" | 13 => Some "ge"
  | 14 => Some "le" | 15 => Some "g" | _ => None
  end.

(** group 2, the shifts *)
Definition shift (n : Z) : option string :=
  match n with 4 => Some "shl" | 5 => Some "shr" | 7 => Some "sar" | _ => None end.

(** group 3 *)
Definition grp3 (n : Z) : option string :=
  match n with
  | 2 => Some "not" | 3 => Some "neg" | 4 => Some "mul" | 5 => Some "imul"
  | 6 => Some "div" | 7 => Some "idiv" | _ => None
  end.

Definition named (o : option string) (pre : string) (ps : list pat)
  : option (string * list pat) :=
  match o with Some s => Some (pre ++ s, ps) | None => None end.

(** bytes of an operand of the current width *)
Definition op_width (w p66 : bool) : Z := if w then 8 else if p66 then 2 else 4.
(** an immediate of the current width has at most four bytes *)
Definition imm_z (v : Z) : Z := if v =? 8 then 4 else v.

(** one-byte opcodes; [v] is the operand width, [n] the field ModRM.reg *)
Definition map1 (op v n : Z) : option (string * list pat) :=
  if op <? 0x40 then
    match op mod 8 with
    | 0 => named (alu (op / 8)) "" [PE 1; PG 1]
    | 1 => named (alu (op / 8)) "" [PE v; PG v]
    | 2 => named (alu (op / 8)) "" [PG 1; PE 1]
    | 3 => named (alu (op / 8)) "" [PG v; PE v]
    | _ => None
    end
  else if op / 8 =? 0x50 / 8 then Some ("push", [PZ 8])
  else if op / 8 =? 0x58 / 8 then Some ("pop", [PZ 8])
  else if op =? 0x63 then Some ("movsxd", [PG v; PE 4])
  else if op =? 0x69 then Some ("imul", [PG v; PE v; PImm (imm_z v) v])
  else if op =? 0x6B then Some ("imul", [PG v; PE v; PImm 1 v])
  else if op / 16 =? 7 then named (cond (op mod 16)) "j" [PRel 1]
  else if op =? 0x80 then named (alu n) "" [PE 1; PImm 1 1]
  else if op =? 0x81 then named (alu n) "" [PE v; PImm (imm_z v) v]
  else if op =? 0x84 then Some ("test", [PE 1; PG 1])
  else if op =? 0x85 then Some ("test", [PE v; PG v])
  else if op =? 0x88 then Some ("mov", [PE 1; PG 1])
  else if op =? 0x89 then Some ("mov", [PE v; PG v])
  else if op =? 0x8A then Some ("mov", [PG 1; PE 1])
  else if op =? 0x8B then Some ("mov", [PG v; PE v])
  else if op =? 0x8D then Some ("lea", [PG v; PMem 8])
  else if op =? 0x8F then (if n =? 0 then Some ("pop", [PE 8]) else None)
  else if op / 8 =? 0xB0 / 8 then Some ("mov", [PZ 1; PImm 1 1])
  else if op / 8 =? 0xB8 / 8 then Some ("mov", [PZ v; PImm v v])
  else if op =? 0xC0 then named (shift n) "" [PE 1; PRaw 1]
  else if op =? 0xC1 then named (shift n) "" [PE v; PRaw 1]
  else if op =? 0xC3 then Some ("ret", [])
  else if op =? 0xC6 then (if n =? 0 then Some ("mov", [PE 1; PImm 1 1]) else None)
  else if op =? 0xC7 then (if n =? 0 then Some ("mov", [PE v; PImm (imm_z v) v]) else None)
  else if op =? 0xD2 then named (shift n) "" [PE 1; PCl]
  else if op =? 0xD3 then named (shift n) "" [PE v; PCl]
  else if op =? 0xE8 then Some ("call", [PRel 4])
  else if op =? 0xE9 then Some ("jmp", [PRel 4])
  else if op =? 0xEB then Some ("jmp", [PRel 1])
  else if op =? 0xF6 then named (grp3 n) "" [PE 1]
  else if op =? 0xF7 then named (grp3 n) "" [PE v]
  else if op =? 0xFE then
    (if n =? 0 then Some ("inc", [PE 1]) else if n =? 1 then Some ("dec", [PE 1]) else None)
  else if op =? 0xFF then
    (if n =? 0 then Some ("inc", [PE v]) else if n =? 1 then Some ("dec", [PE v])
     else if n =? 2 then Some ("call", [PE 8])
     else if n =? 6 then Some ("push", [PE 8]) else None)
  else None.

(** the mandatory prefix of an SSE instruction: none, 66, F3 or F2 *)
Definition sse (p66 pf2 pf3 : bool) (np p6 p3 p2 : option (string * list pat))
  : option (string * list pat) :=
  if pf2 then p2 else if pf3 then p3 else if p66 then p6 else np.

(** two-byte opcodes 0F xx *)
Definition map2 (op v : Z) (p66 pf2 pf3 : bool) : option (string * list pat) :=
  let sse := sse p66 pf2 pf3 in
  let scalar s :=
    sse None None (Some (s ++ "ss", [PX; PXE 4])) (Some (s ++ "sd", [PX; PXE 8])) in
  if op =? 0x05 then Some ("syscall", [])
  else if op =? 0x10 then
    sse (Some ("movups", [PX; PXE 16])) None
        (Some ("movss", [PX; PXE 4])) (Some ("movsd", [PX; PXE 8]))
  else if op =? 0x11 then
    sse (Some ("movups", [PXE 16; PX])) None
        (Some ("movss", [PXE 4; PX])) (Some ("movsd", [PXE 8; PX]))
  else if op =? 0x28 then sse (Some ("movaps", [PX; PXE 16])) None None None
  else if op =? 0x29 then sse (Some ("movaps", [PXE 16; PX])) None None None
  else if op =? 0x2A then
    sse None None (Some ("cvtsi2ss", [PX; PE v])) (Some ("cvtsi2sd", [PX; PE v]))
  else if op =? 0x2C then
    sse None None (Some ("cvttss2si", [PG v; PXE 4])) (Some ("cvttsd2si", [PG v; PXE 8]))
  else if op =? 0x2F then
    sse (Some ("comiss", [PX; PXE 4])) (Some ("comisd", [PX; PXE 8])) None None
  else if op =? 0x57 then
    sse (Some ("xorps", [PX; PXE 16])) (Some ("xorpd", [PX; PXE 16])) None None
  else if op =? 0x58 then scalar "add"
  else if op =? 0x59 then scalar "mul"
  else if op =? 0x5A then
    sse None None (Some ("cvtss2sd", [PX; PXE 4])) (Some ("cvtsd2ss", [PX; PXE 8]))
  else if op =? 0x5C then scalar "sub"
  else if op =? 0x5E then scalar "div"
  else if op / 16 =? 8 then named (cond (op mod 16)) "j" [PRel 4]
  else if op / 16 =? 9 then named (cond (op mod 16)) "set" [PE 1]
  else if op =? 0xAF then Some ("imul", [PG v; PE v])
  else if op =? 0xB6 then Some ("movzx", [PG v; PE 1])
  else if op =? 0xB7 then Some ("movzx", [PG v; PE 2])
  else if op =? 0xBE then Some ("movsx", [PG v; PE 1])
  else if op =? 0xBF then Some ("movsx", [PG v; PE 2])
  else None.
Local Close Scope string_scope.

(** ** ModRM and SIB *)

(** what ModRM.rm designates *)
Inductive ea := EReg (n : Z) | EMem (a : addr).

Definition disp_of (n : nat) (l : list Z) : option (Z * list Z) :=
  match take n l with
  | Some (d, r) => Some (signed (Z.of_nat n) (le_value d), r)
  | None => None
  end.

(** memory with base, index and the displacement that the field mod asks for *)
Definition with_disp (mod_ : Z) (nobase : bool) (base : option Z) (index : option (Z * Z))
  (l : list Z) : option (ea * list Z) :=
  let go n b :=
    match disp_of n l with
    | Some (d, r) => Some (EMem (Abs b index d), r)
    | None => None
    end in
  if mod_ =? 0 then
    if nobase then go 4%nat None else Some (EMem (Abs base index 0), l)
  else if mod_ =? 1 then go 1%nat base
  else go 4%nat base.

(** the ModRM byte and what follows it: the field reg, what rm designates *)
Definition parse_ea (p : prefs) (l : list Z) : option (Z * ea * list Z) :=
  match l with
  | [] => None
  | b :: r =>
      let mod_ := b / 64 in
      let reg := (b / 8) mod 8 in
      let rm := b mod 8 in
      let rx := rex_bit p 1 in
      let rb := rex_bit p 0 in
      if mod_ =? 3 then Some (reg, EReg (ext_num rb rm), r)
      else if rm =? 4 then
        match r with
        | [] => None
        | s :: r' =>
            let i := ext_num rx ((s / 8) mod 8) in
            let base := s mod 8 in
            let index := if i =? 4 then None else Some (i, 2 ^ (s / 64)) in
            match with_disp mod_ (base =? 5) (Some (ext_num rb base)) index r' with
            | Some (e, r'') => Some (reg, e, r'')
            | None => None
            end
        end
      else if (mod_ =? 0) && (rm =? 5) then
        match disp_of 4 r with
        | Some (d, r') => Some (reg, EMem (Rip d), r')
        | None => None
        end
      else
        match with_disp mod_ false (Some (ext_num rb rm)) None r with
        | Some (e, r') => Some (reg, e, r')
        | None => None
        end
  end.

(** ** Operands *)

(** register number [n] (with its REX bit) at a width: without a REX byte the
    byte registers 4-7 are ah, ch, dh, bh *)
Definition gpr (p : prefs) (w n : Z) : xop :=
  match p_rex p with
  | None => if (w =? 1) && (4 <=? n) then XHigh (n - 4) else XGpr w n
  | Some _ => XGpr w n
  end.

(** the operand a pattern designates; [m] is the decoded ModRM, [op] the opcode *)
Definition operand_of (p : prefs) (op : Z) (m : option (Z * ea)) (pt : pat) (l : list Z)
  : option (xop * list Z) :=
  let number n k :=
    match take (Z.to_nat n) l with
    | Some (d, r) => Some (k (le_value d), r)
    | None => None
    end in
  match pt, m with
  | PE w, Some (_, EReg n) => Some (gpr p w n, l)
  | PE w, Some (_, EMem a) => Some (XMem (p_seg p) w a, l)
  | PG w, Some (r, _) => Some (gpr p w (ext_num (rex_bit p 2) r), l)
  | PZ w, _ => Some (gpr p w (ext_num (rex_bit p 0) (op mod 8)), l)
  | PImm n w, _ => number n (fun v => XImm (signed n v mod 2 ^ (8 * w)))
  | PRaw n, _ => number n XImm
  | PRel n, _ => number n (fun v => XRel (signed n v))
  | PCl, _ => Some (XGpr 1 1, l)
  | PX, Some (r, _) => Some (XXmm (ext_num (rex_bit p 2) r), l)
  | PXE w, Some (_, EReg n) => Some (XXmm n, l)
  | PXE w, Some (_, EMem a) => Some (XMem (p_seg p) w a, l)
  | PMem w, Some (_, EMem a) => Some (XMem (p_seg p) w a, l)
  | _, _ => None
  end.

Fixpoint operands_of (p : prefs) (op : Z) (m : option (Z * ea)) (ps : list pat) (l : list Z)
  : option (list xop * list Z) :=
  match ps with
  | [] => Some ([], l)
  | pt :: ps' =>
      match operand_of p op m pt l with
      | Some (x, l1) =>
          match operands_of p op m ps' l1 with
          | Some (xs, l2) => Some (x :: xs, l2)
          | None => None
          end
      | None => None
      end
  end.

Definition uses_modrm (ps : list pat) : bool :=
  existsb (fun q => match q with PE _ | PG _ | PX | PXE _ | PMem _ => true | _ => false end) ps.

(** ** The decoder: one instruction and what follows it *)
Definition decode (l : list Z) : option (string * list xop * list Z) :=
  let (p, l1) := prefixes no_prefix l in
  match l1 with
  | [] => None
  | b :: l2 =>
      let v := op_width (rex_bit p 3) (p_66 p) in
      let field l := match l with m :: _ => (m / 8) mod 8 | [] => 0 end in
      let found :=
        if b =? 0x0F then
          match l2 with
          | [] => None
          | o :: l3 =>
              match map2 o v (p_66 p) (p_f2 p) (p_f3 p) with
              | Some f => Some (f, o, l3)
              | None => None
              end
          end
        else
          match map1 b v (field l2) with
          | Some f => Some (f, b, l2)
          | None => None
          end in
      match found with
      | None => None
      | Some ((name, ps), op, l3) =>
          if uses_modrm ps then
            match parse_ea p l3 with
            | Some (r, e, l4) =>
                match operands_of p op (Some (r, e)) ps l4 with
                | Some (xs, l5) => Some (name, xs, l5)
                | None => None
                end
            | None => None
            end
          else
            match operands_of p op None ps l3 with
            | Some (xs, l5) => Some (name, xs, l5)
            | None => None
            end
      end
  end.

(** ** What an assembler instruction asks for *)

(** the shape of an operand: register class, memory, number, each with its size
    in bytes *)
Inductive shape := SGpr (size : Z) | SXmm (size : Z) | SMem (size : Z) | SNum (size : Z).

Definition shape_of (o : operand) : shape :=
  match o with
  | OReg r =>
      match r_class r with
      | G8 | G8H => SGpr 1 | G16 => SGpr 2 | G32 => SGpr 4 | G64 => SGpr 8
      | X32 => SXmm 4 | X64 => SXmm 8 | X128 => SXmm 16
      end
  | OInd _ s | ODisp _ _ s | OSib _ _ _ _ s | ORip _ s | OSeg _ _ s | OSym s => SMem s
  | OUint8 _ => SNum 1
  | OUint16 _ => SNum 2
  | OUint32 _ | OUint _ | OFloat32 _ => SNum 4
  | OUint64 _ | OFloat64 _ => SNum 8
  end.

Local Open Scope string_scope.
Local Open Scope Z_scope.
(** the float size of an instruction: that of its first xmm operand *)
Fixpoint float_size (l : list shape) : option Z :=
  match l with
  | [] => None
  | SXmm s :: _ => Some s
  | _ :: r => float_size r
  end.
Definition ssd (s : Z) : string := if s =? 4 then "ss" else "sd".
Definition psd (s : Z) : string := if s =? 4 then "ps" else "pd".

(** the processor's name for an assembler instruction *)
Definition want_name (name : string) (l : list shape) : string :=
  if String.eqb name "sal" then "shl"
  else if String.eqb name "syscall_inst" then "syscall"
  else if String.eqb name "movxmm128" then "movups"
  else if String.eqb name "movsx" then
    match l with [SGpr 8; SGpr 4] | [SGpr 8; SMem 4] => "movsxd" | _ => name end
  else if String.eqb name "movzx" then
    (* clearing the upper half is what a 32-bit move does *)
    match l with [SGpr 8; SGpr 4] | [SGpr 8; SMem 4] => "mov" | _ => name end
  else
    match float_size l with
    | None => name
    | Some s =>
        if String.eqb name "add" then "add" ++ ssd s
        else if String.eqb name "sub" then "sub" ++ ssd s
        else if String.eqb name "fmul" then "mul" ++ ssd s
        else if String.eqb name "fdiv" then "div" ++ ssd s
        else if String.eqb name "cmp" then "comi" ++ ssd s
        else if String.eqb name "xor" then "xor" ++ psd s
        else if String.eqb name "mov" then
          match l with [SXmm _; SXmm _] => "movaps" | _ => "mov" ++ ssd s end
        else name
    end.

(** is the instruction a jump or a call *)
Definition jumps (name : string) : bool :=
  match name with
  | String "j" _ => true
  | _ => String.eqb name "call"
  end.

(** the width numbers are extended to: that of the first operand *)
Definition num_width (l : list shape) : Z :=
  match l with
  | SGpr s :: _ | SMem s :: _ => s
  | _ => 8
  end.

(** A number written with [n] bytes: the distance of a jump, the count of a
    shift, or a number of the width of the instruction. *)
Definition want_num (name : string) (w n v : Z) : xop :=
  if jumps name then XRel (signed n v)
  else if String.eqb name "shr" then XImm v
  else XImm (signed n v mod 2 ^ (8 * w)).

(** the width a register is named with: zero-extending 32 bits into 64 writes the
    32-bit register *)
Definition want_width (name : string) (l : list shape) (s : Z) : Z :=
  if String.eqb name "movzx" then
    match l with
    | [SGpr a; SGpr b] | [SGpr a; SMem b] => if (a =? 8) && (b =? 4) then 4 else s
    | _ => s
    end
  else s.
(** [movxmm128] moves 16 bytes *)
Definition want_mem (name : string) (s : Z) : Z :=
  if String.eqb name "movxmm128" then 16 else s.
Local Close Scope string_scope.

Definition want_addr (o : operand) : option (option segm * addr) :=
  match o with
  | OInd r _ => Some (None, Abs (Some (r_index r)) None 0)
  | ODisp r d _ => Some (None, Abs (Some (r_index r)) None d)
  | OSib b i s d _ =>
      Some (None, Abs (match b with Some r => Some (r_index r) | None => None end)
                      (match i with Some r => Some (r_index r, s) | None => None end) d)
  | ORip d _ => Some (None, Rip d)
  | OSeg s d _ => Some (Some s, Abs None None d)
  | _ => None
  end.

Definition want_op (name : string) (l : list shape) (o : operand) : xop :=
  match o with
  | OReg r =>
      match r_class r with
      | G8H => XHigh (r_index r - 4)
      | X32 | X64 | X128 => XXmm (r_index r)
      | G8 => XGpr (want_width name l 1) (r_index r)
      | G16 => XGpr (want_width name l 2) (r_index r)
      | G32 => XGpr (want_width name l 4) (r_index r)
      | G64 => XGpr (want_width name l 8) (r_index r)
      end
  | OUint8 v => want_num name (num_width l) 1 v
  | OUint16 v => want_num name (num_width l) 2 v
  | OUint32 v | OUint v | OFloat32 v => want_num name (num_width l) 4 v
  | OUint64 v | OFloat64 v => want_num name (num_width l) 8 v
  | OInd _ s | ODisp _ _ s | OSib _ _ _ _ s | ORip _ s | OSeg _ _ s | OSym s =>
      match want_addr o with
      | Some (sg, a) => XMem sg (want_mem name s) a
      | None => XMem None s (Rip 0)
      end
  end.

(** the instruction asked for *)
Definition want (name : string) (ops : list operand) : string * list xop :=
  let l := map shape_of ops in
  (want_name name l, map (want_op name l) ops).

(** ** Operands that make sense *)

Definition reg_ok (r : reg) : Prop :=
  match r_class r with
  | G8H => 4 <= r_index r <= 7
  | _ => 0 <= r_index r <= 15
  end.
(** a register that can hold an address *)
Definition base_ok (r : reg) : Prop := r_class r = G64 /\ 0 <= r_index r <= 15.
Definition is_int32 (d : Z) : Prop := -2147483648 <= d <= 2147483647.

(** An operand that makes sense: the registers exist, addresses use 64-bit
    registers, the scale is 1, 2, 4 or 8 (or 0 without an index), rsp is not an
    index, numbers fit their size. *)
Definition operand_ok (o : operand) : Prop :=
  match o with
  | OReg r => reg_ok r
  | OInd r _ => base_ok r
  | ODisp r d _ => base_ok r /\ is_int32 d
  | OSib b i s d _ =>
      match b with Some r => base_ok r | None => True end
      /\ match i with
         | Some r => base_ok r /\ r_index r <> 4 /\ In s [1; 2; 4; 8]
         | None => In s [0; 1; 2; 4; 8]
         end
      /\ is_int32 d
  | ORip d _ => is_int32 d
  | OSeg _ d _ => is_int32 d
  | OUint8 v => 0 <= v < 2 ^ 8
  | OUint16 v => 0 <= v < 2 ^ 16
  | OUint32 v | OUint v | OFloat32 v => 0 <= v < 2 ^ 32
  | OUint64 v | OFloat64 v => 0 <= v < 2 ^ 64
  | OSym _ => True
  end.

Local Open Scope string_scope.
Local Open Scope Z_scope.
(** shifts take their count from cl *)
Definition shift_ok (name : string) (ops : list operand) : Prop :=
  (name = "sal" \/ name = "sar" \/ name = "shr") ->
  match ops with
  | [_; OReg r] => r_class r = G8 /\ r_index r = 1
  | _ => True
  end.
Local Close Scope string_scope.

(** ** Instructions the encoder gets wrong *)

(** the registers an operand mentions *)
Definition mentions (o : operand) (r : reg) : Prop :=
  match o with
  | OReg x | OInd x _ | ODisp x _ _ => x = r
  | OSib b i _ _ _ => b = Some r \/ i = Some r
  | _ => False
  end.
(** registers that can only be named with a REX byte: numbers from 8 on, and
    spl, bpl, sil, dil *)
Definition far (r : reg) : Prop := 8 <= r_index r \/ (r_class r = G8 /\ 4 <= r_index r).
Definition no_far (ops : list operand) : Prop :=
  forall o r, In o ops -> mentions o r -> ~ far r.

(** a base of rsp or r12 is written with an index byte; with an index byte, a
    base of rbp or r13 has no displacement *)
Definition address_ok (o : operand) : Prop :=
  match o with
  | OInd r _ | ODisp r _ _ => r_index r <> 4 /\ r_index r <> 12
  | OSib (Some r) _ _ d _ => r_index r = 5 \/ r_index r = 13 -> d = 0
  | _ => True
  end.
(** ah, ch, dh, bh do not stand beside registers that need a REX byte *)
Definition high_byte_ok (ops : list operand) : Prop :=
  forall r, In (OReg r) ops -> r_class r = G8H -> no_far ops.
Local Open Scope string_scope.
Local Open Scope Z_scope.
(** adding a byte register to memory is not encoded at all; the exclusive or of
    floats does not work with memory, and with 64-bit floats not with registers
    from xmm8 on *)
Definition name_ok (name : string) (ops : list operand) : Prop :=
  (name = "add" -> map shape_of ops <> [SMem 1; SGpr 1])
  /\ (name = "xor" ->
       match ops with
       | OReg r :: rest =>
           (r_class r = X64 -> no_far ops)
           /\ (r_class r = X32 \/ r_class r = X64 \/ r_class r = X128 ->
               forall s, map shape_of rest <> [SMem s])
       | _ => True
       end).
Local Close Scope string_scope.

(** all of the above *)
Definition supported (name : string) (ops : list operand) : Prop :=
  Forall operand_ok ops /\ shift_ok name ops
  /\ Forall address_ok ops /\ high_byte_ok ops /\ name_ok name ops.

(** ** Addresses *)

(** the address a memory operand designates; [R] gives the registers *)
Definition addr_value (R : Z -> Z) (a : addr) : option Z :=
  match a with
  | Abs b i d =>
      Some ((match b with Some r => R r | None => 0 end)
            + (match i with Some (r, s) => R r * s | None => 0 end) + d)
  | Rip _ => None
  end.
Definition operand_addr (R : Z -> Z) (o : operand) : option Z :=
  match want_addr o with Some (None, a) => addr_value R a | _ => None end.

(** the address the compiler's operand means: rbp is register 5 *)
Definition laddr_value (R : Z -> Z) (a : laddr) : Z :=
  match la_base a with LNone => 0 | LReg r => R (r_index r) | LStack slot _ => R 5 + slot end
  + match la_index a with Some i => R (r_index i) * la_scale a | None => 0 end
  + la_offset a.

(** Addresses the lowering passes build: the registers hold addresses, the scale
    is 1, 2, 4 or 8, rsp is not an index, a stack slot has no index, and the
    offset fits 32 bits. *)
Definition laddr_ok (a : laddr) : Prop :=
  match la_base a with
  | LReg r => base_ok r
  | LStack slot _ => is_int32 (slot + la_offset a) /\ la_index a = None
  | LNone => True
  end
  /\ match la_index a with
     | Some i => base_ok i /\ r_index i <> 4 /\ In (la_scale a) [1; 2; 4; 8]
     | None => True
     end
  /\ is_int32 (la_offset a).

(** ** Numbers of the language *)

(** the width in bytes of values of a kind *)
Definition kind_width (k : ikind) : Z :=
  match k with I64 => 8 | I32 => 4 | I16 => 2 | I8 | IBool => 1 end.
(** the number the processor sees in an operand, for an instruction that is not a
    jump or a shift and whose first operand has [w] bytes *)
Definition num_value (w : Z) (o : operand) : option Z :=
  match want_op EmptyString [SGpr w] o with XImm v => Some v | _ => None end.

(** ** Instructions that must exist *)

(** operands without segments, symbols, floats and untyped numbers *)
Definition plain (o : operand) : Prop :=
  match o with
  | OSeg _ _ _ | OUint _ | OFloat32 _ | OFloat64 _ | OSym _ => False
  | _ => True
  end.
Local Open Scope string_scope.
Definition widths : list Z := [1; 2; 4; 8].
Definition fwidths : list Z := [4; 8].
(** the forms of an instruction on integers, of one operand, of a shift, of an
    instruction on floats, of a jump *)
Definition form2 (w : Z) : list (list shape) :=
  [ [SGpr w; SGpr w]; [SGpr w; SMem w]; [SMem w; SGpr w];
    [SGpr w; SNum (Z.min w 4)]; [SMem w; SNum (Z.min w 4)] ].
Definition form1 (w : Z) : list (list shape) := [ [SGpr w]; [SMem w] ].
Definition form_shift (w : Z) : list (list shape) := [ [SGpr w; SGpr 1]; [SMem w; SGpr 1] ].
Definition form_float (w : Z) : list (list shape) := [ [SXmm w; SXmm w]; [SXmm w; SMem w] ].
Definition forms (names : list string) (f : Z -> list (list shape)) (ws : list Z)
  : list (string * list shape) :=
  flat_map (fun n => flat_map (fun w => map (pair n) (f w)) ws) names.
(** the instructions the compiler relies on *)
Definition usual : list (string * list shape) :=
  forms ["add"; "sub"; "and"; "or"; "xor"; "cmp"; "mov"] form2 widths
  ++ forms ["neg"; "not"; "mul"; "imul"; "div"; "idiv"] form1 widths
  ++ forms ["sal"; "sar"; "shr"] form_shift widths
  ++ forms ["add"; "sub"; "fmul"; "fdiv"; "cmp"; "mov"] form_float fwidths
  ++ forms ["mov"] (fun w => [[SMem w; SXmm w]]) fwidths
  ++ forms ["je"; "jne"; "ja"; "jae"; "jb"; "jbe"; "jg"; "jge"; "jl"; "jle"; "jmp"]
       (fun w => [[SNum w]]) [1; 4]
  ++ forms ["sete"; "setne"; "seta"; "setae"; "setb"; "setbe"; "setg"; "setge"; "setl"; "setle"]
       form1 [1]
  ++ forms ["movsx"; "movzx"] (fun w => [[SGpr 8; SGpr w]; [SGpr 8; SMem w]]) [1; 2; 4]
  ++ forms ["movsx"; "movzx"] (fun w => [[SGpr 4; SGpr w]; [SGpr 4; SMem w]]) [1; 2]
  ++ forms ["movsx"; "movzx"] (fun w => [[SGpr 2; SGpr w]; [SGpr 2; SMem w]]) [1]
  ++ forms ["cvtsi2ss"] (fun w => [[SXmm 4; SGpr w]]) [4; 8]
  ++ forms ["cvtsi2sd"] (fun w => [[SXmm 8; SGpr w]]) [4; 8]
  ++ [("call", [SNum 4]); ("call", [SGpr 8]); ("push", [SGpr 8]); ("pop", [SGpr 8]);
      ("lea", [SGpr 8; SMem 8]); ("ret", []); ("mov", [SGpr 8; SNum 8])].
Local Close Scope string_scope.
(** ah, ch, dh, bh are only used where all operands have one byte *)
Definition byte_shape (s : shape) : Prop := s = SGpr 1 \/ s = SMem 1 \/ s = SNum 1.
Definition bytes_if_high (ops : list operand) : Prop :=
  forall r, In (OReg r) ops -> r_class r = G8H -> Forall byte_shape (map shape_of ops).
