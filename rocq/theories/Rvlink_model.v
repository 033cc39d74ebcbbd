(** RISC-V: names in the text section, and the linker's relocations.

    Code modelled: src/binary/arch/riscv64.h, elf_riscv64_relocate (161-436),
    riscv64_rewrite_rel_symbol (439-450) and elf_riscv64_operation_encodings
    (452-673), with the helpers of utils/helper.h 295-340.

    Simplifications, everywhere in this file:
    - names are numbers; the symbol table is the list of its entries, newest
      first, and holds only what this function puts there;
    - the functions of a module are one list of instructions, as the function
      treats them (the offset is not reset between them);
    - the table of callers for stack traces is left out;
    - relocations that go through the tables for shared libraries (GOT_HI20,
      PLT32, RELATIVE, COPY) and those of the TLS descriptors are left out. *)
From Coq Require Import ZArith List Bool Lia.
From Verif Require Import Base Rv_model.
Import ListNotations.
Open Scope Z_scope.

(** ** Reading and writing numbers, utils/helper.h 295-340 *)

Fixpoint le (n : nat) (w : Z) : list Z :=
  match n with O => [] | Datatypes.S n => w mod 256 :: le n (w / 256) end.
Fixpoint unle (b : list Z) : Z :=
  match b with [] => 0 | x :: b => x + 256 * unle b end.

(** [n] bytes at the place to fill in; past the end of the section is UB *)
Definition get (n : nat) (b : list Z) : res Z :=
  if (length b <? n)%nat then UB else Ok (unle (firstn n b)).
Definition put (n : nat) (w : Z) (b : list Z) : list Z := le n w ++ skipn n b.
Definition upd (n : nat) (f : Z -> Z) (b : list Z) : res (list Z) :=
  bind (get n b) (fun w => Ok (put n (f w) b)).

(** ** Relocations *)

Inductive rty :=
| RBranch | RJal | RCall | RPcrelHi | RPcrelLoI | RPcrelLoS
| RRvcBranch | RRvcJump
| R32 | R64 | RAdd64 | RAdd32 | RAdd16 | RSub64 | RSub32 | RSub16 | RSub8
| RSet6 | RSet8 | RSet16 | RSub6 | RPcrel32
| RHi20 | RLo12I | RLo12S
| RTprelHi | RTprelLoI | RTprelLoS
| RSetUleb | RSubUleb.

(** conversion to uint64_t and to int64_t *)
Definition u64 (v : Z) : Z := v mod 2 ^ 64.
Definition i64 (v : Z) : Z := (v + 2 ^ 63) mod 2 ^ 64 - 2 ^ 63.
Definition u32 (v : Z) : Z := v mod 2 ^ 32.

(** the instruction words with a new constant, riscv64.h 175-235, 315-359.
    [d] is the constant, as an unsigned number. *)
Definition patch_b (off32 w : Z) : Z :=
  Z.lor (Z.lor (Z.lor (Z.lor (Z.land w (Z.lnot 0xfe000f80))
    (Z.shiftl (Z.land off32 0x800) 20)) (Z.shiftl (Z.land off32 0x3f0) 21))
    (Z.shiftl (Z.land off32 0x00f) 8)) (Z.shiftr (Z.land off32 0x400) 3).
Definition patch_j (d w : Z) : Z :=
  Z.lor (Z.lor (Z.lor (Z.lor (Z.land w 0xfff)
    (Z.shiftl (Z.land (Z.shiftr d 12) 0xff) 12)) (Z.shiftl (Z.land (Z.shiftr d 11) 1) 20))
    (Z.shiftl (Z.land (Z.shiftr d 1) 0x3ff) 21)) (Z.shiftl (Z.land (Z.shiftr d 20) 1) 31).
Definition patch_i (d w : Z) : Z :=
  Z.lor (Z.land w 0xfffff) (Z.shiftl (Z.land d 0xfff) 20).
Definition patch_s (d w : Z) : Z :=
  Z.lor (Z.lor (Z.land w (Z.lnot 0xfe000f80)) (Z.shiftl (Z.land d 0xfe0) 20))
    (Z.shiftl (Z.land d 0x01f) 7).
Definition patch_cb (d w : Z) : Z :=
  Z.lor (Z.lor (Z.lor (Z.lor (Z.lor (Z.land w 0xe383)
    (Z.shiftl (Z.land (Z.shiftr d 5) 1) 2)) (Z.shiftl (Z.land (Z.shiftr d 1) 3) 3))
    (Z.shiftl (Z.land (Z.shiftr d 6) 3) 5)) (Z.shiftl (Z.land (Z.shiftr d 3) 3) 10))
    (Z.shiftl (Z.land (Z.shiftr d 8) 1) 12).
Definition patch_cj (d w : Z) : Z :=
  Z.lor (Z.lor (Z.lor (Z.lor (Z.lor (Z.lor (Z.lor (Z.lor (Z.land w 0xe003)
    (Z.shiftl (Z.land (Z.shiftr d 5) 1) 2)) (Z.shiftl (Z.land (Z.shiftr d 1) 7) 3))
    (Z.shiftl (Z.land (Z.shiftr d 7) 1) 6)) (Z.shiftl (Z.land (Z.shiftr d 6) 1) 7))
    (Z.shiftl (Z.land (Z.shiftr d 10) 1) 8)) (Z.shiftl (Z.land (Z.shiftr d 8) 3) 9))
    (Z.shiftl (Z.land (Z.shiftr d 4) 1) 11)) (Z.shiftl (Z.land (Z.shiftr d 11) 1) 12).
(** the upper 20 bits from bit 12 of [d] (CALL, 193) *)
Definition patch_u (d w : Z) : Z :=
  Z.lor (Z.land w 0xfff) (Z.land d (Z.lnot 0xfff)).
(** the upper 20 bits from bit 0 of [hi] (PCREL_HI20 203, HI20 317) *)
Definition patch_hi (hi w : Z) : Z :=
  Z.lor (Z.land w 0xfff) (Z.shiftl hi 12).

(** ULEB128, riscv64.h 373-407: seven bits a byte, low ones first.  Ten bytes
    hold any 64-bit number. *)
Fixpoint uleb (fuel : nat) (v : Z) : list Z :=
  match fuel with
  | O => []
  | Datatypes.S fuel =>
      if 0x80 <=? v then Z.lor (Z.land v 0x7f) 0x80 :: uleb fuel (Z.shiftr v 7)
      else [Z.land v 0x7f]
  end.
Definition put_uleb (v : Z) (b : list Z) : res (list Z) :=
  let c := uleb 10 v in
  if (length b <? length c)%nat then UB else Ok (c ++ skipn (length c) b).
(** reading it back, riscv64.h 385-396; shifting by 64 or more is undefined *)
Fixpoint read_uleb (shift : Z) (b : list Z) : res Z :=
  match b with
  | [] => UB
  | x :: b =>
      if 64 <=? shift then UB
      else if Z.land x 0x80 =? 0 then Ok (u64 (Z.shiftl (Z.land x 0x7f) shift))
      else bind (read_uleb (shift + 7) b) (fun r =>
           Ok (Z.lor (u64 (Z.shiftl (Z.land x 0x7f) shift)) r))
  end.

(** elf_riscv64_relocate, riscv64.h 161-436.  [b]: the section from the place to
    fill in; [tls]: where the thread-local section is; [hi]: ctx->last_hi, the
    place and target of the last PCREL_HI20. *)
Definition relocate (t : rty) (tls : Z) (hi : Z * Z) (b : list Z) (addr val : Z)
    : res (list Z * (Z * Z)) :=
  let off64 := u64 (val - addr) in
  let keep r := bind r (fun b => Ok (b, hi)) in
  match t with
  | RBranch =>
      if negb (Z.land (u64 (off64 + 2 ^ 12)) (Z.lnot 0x1ffe) =? 0) then Abort
      else keep (upd 4 (patch_b (u32 (Z.shiftr off64 1))) b)
  | RJal =>
      if negb (Z.land (u64 (off64 + 2 ^ 21)) (Z.lnot (2 ^ 22 - 2)) =? 0) then Abort
      else keep (upd 4 (patch_j (u32 off64)) b)
  | RCall =>
      keep (bind (upd 4 (patch_u (u64 (off64 + 0x800))) b) (fun b =>
            bind (upd 4 (patch_i off64) (skipn 4 b)) (fun c => Ok (firstn 4 b ++ c))))
  | RPcrelHi =>
      let off := Z.shiftr (i64 (val - addr + 0x800)) 12 in
      if negb (Z.shiftr (u64 (off + 2 ^ 20)) 21 =? 0) then Abort
      else bind (upd 4 (patch_hi (Z.land off 0xfffff)) b) (fun b => Ok (b, (addr, val)))
  | RPcrelLoI =>
      if negb (val =? fst hi) then Abort
      else keep (upd 4 (patch_i (u64 (snd hi - fst hi))) b)
  | RPcrelLoS =>
      if negb (val =? fst hi) then Abort
      else keep (upd 4 (patch_s (u32 (snd hi - fst hi))) b)
  | RRvcBranch =>
      if negb (Z.land (u64 (off64 + 2 ^ 8)) (Z.lnot 0x1fe) =? 0) then Abort
      else keep (upd 2 (patch_cb (u32 off64)) b)
  | RRvcJump =>
      if negb (Z.land (u64 (off64 + 2 ^ 11)) (Z.lnot 0xffe) =? 0) then Abort
      else keep (upd 2 (patch_cj (u32 off64)) b)
  | R32 | RAdd32 => keep (upd 4 (fun w => w + val) b)
  | R64 | RAdd64 => keep (upd 8 (fun w => w + val) b)
  | RAdd16 => keep (upd 2 (fun w => w + val) b)
  | RSub64 => keep (upd 8 (fun w => w - val) b)
  | RSub32 => keep (upd 4 (fun w => w - val) b)
  | RSub16 => keep (upd 2 (fun w => w - val) b)
  | RSub8 => keep (upd 1 (fun w => w - val) b)
  | RSet6 => keep (upd 1 (fun w => Z.lor (Z.land w (Z.lnot 0x3f)) (Z.land val 0x3f)) b)
  | RSet8 => keep (upd 1 (fun w => Z.lor (Z.land w (Z.lnot 0xff)) (Z.land val 0xff)) b)
  | RSet16 => keep (upd 1 (fun w => Z.lor (Z.land w (Z.lnot 0xffff)) (Z.land val 0xffff)) b)
  | RSub6 => keep (upd 1 (fun w => Z.lor (Z.land w (Z.lnot 0x3f)) (Z.land (w - val) 0x3f)) b)
  | RPcrel32 => keep (upd 4 (fun w => w + (val - addr)) b)
  | RHi20 => keep (upd 4 (patch_hi (u32 (Z.shiftr (u64 (val + 0x800)) 12))) b)
  | RLo12I => keep (upd 4 (patch_i val) b)
  | RLo12S => keep (upd 4 (patch_s val) b)
  | RTprelHi => keep (upd 4 (patch_hi (u32 (Z.shiftr (u64 (u64 (val - tls) + 0x800)) 12))) b)
  | RTprelLoI => keep (upd 4 (patch_i (u64 (val - tls))) b)
  | RTprelLoS => keep (upd 4 (patch_s (u64 (val - tls))) b)
  | RSetUleb => keep (put_uleb val b)
  | RSubUleb => keep (bind (read_uleb 0 b) (fun v => put_uleb (u64 (v - val)) b))
  end.

(** ** Names in the text section *)

Inductive jop := Jmp | Br (o : brop) (rs1 rs2 : Z) | Call.

(** An instruction handed to the function: the definition of a name
    (riscv64.h 473-488); one that refers to no name; one that refers to a name
    and is not a jump, with the relocation it asks for (516-566); a jump, branch
    or call to a name (498-515). *)
Inductive item :=
| Label (n : nat)
| Plain (bytes : list Z)
| Data (bytes : list Z) (t : rty) (n : nat)
| Jump (o : jop) (n : nat).

(** riscv64_is_branch_op, 129-131: RV_J and the conditional branches *)
Definition is_branch (o : jop) : bool := match o with Call => false | _ => true end.

(** riscv64_asm_inst_encoding on a jump whose operand is the constant [d], or
    still the name: symbol.offset is 0 then (opcode.c 738-788) *)
Definition jump_bytes (o : jop) (d : Z) : list Z :=
  match o with
  | Jmp => w_jal 0 d
  | Br o rs1 rs2 => asm_bxx o rs1 rs2 d
  | Call => asm_call_d d
  end.

(** the assertions for conditional branches, riscv64.h 504-507, 611-614 *)
Definition in_range (o : jop) (d : Z) : bool :=
  match o with
  | Br _ _ _ => (-4096 <=? d) && (d <=? 4094)
  | _ => true
  end.

(** riscv64_build_temp_t, riscv64.h 14-23 *)
Record temp := Temp {
  t_off : Z; t_jump : option jop; t_rel : option nat; t_data : list Z
}.
(** an entry of .rela.text; the addend is always 0 *)
Record rela := Rela { r_off : Z; r_ty : rty; r_sym : nat }.
Definition symtab := list (nat * Z).
Fixpoint lookup (t : symtab) (n : nat) : option Z :=
  match t with
  | [] => None
  | (m, v) :: t => if Nat.eqb m n then Some v else lookup t n
  end.

Record st1 := St1 { off : Z; syms : symtab; temps : list temp; rels : list rela }.

(** one instruction of the first pass, riscv64.h 464-591 *)
Definition pass1_step (s : st1) (x : item) : res st1 :=
  match x with
  | Label n =>
      Ok (St1 (off s) ((n, off s) :: syms s)
              (temps s ++ [Temp (off s) None None []]) (rels s))
  | Plain b =>
      Ok (St1 (off s + Z.of_nat (length b)) (syms s)
              (temps s ++ [Temp (off s) None None b]) (rels s))
  | Data b t n =>
      let syms' := match lookup (syms s) n with
                   | Some _ => syms s
                   | None => (n, 0) :: syms s
                   end in
      Ok (St1 (off s + Z.of_nat (length b)) syms'
              (temps s ++ [Temp (off s) None None b])
              (rels s ++ [Rela (off s) t n]))
  | Jump o n =>
      bind (match lookup (syms s) n with
            | Some v =>
                if is_branch o then
                  if in_range o (v - off s) then Ok (v - off s, None) else Abort
                else Ok (0, Some n)
            | None => Ok (0, Some n)
            end) (fun '(d, rel) =>
      let b := jump_bytes o d in
      Ok (St1 (off s + Z.of_nat (length b)) (syms s)
              (temps s ++ [Temp (off s) (Some o) rel b]) (rels s)))
  end.
Fixpoint pass1 (s : st1) (l : list item) : res st1 :=
  match l with
  | [] => Ok s
  | x :: l => bind (pass1_step s x) (fun s => pass1 s l)
  end.

(** one instruction of the second pass, riscv64.h 594-655 *)
Definition pass2_step (sr : symtab * list rela) (t : temp)
    : res (temp * (symtab * list rela)) :=
  let '(tab, rs) := sr in
  match t_rel t, t_jump t with
  | Some n, Some o =>
      let '(tab, v) := match lookup tab n with
                       | Some v => (tab, v)
                       | None => ((n, 0) :: tab, 0)
                       end in
      if is_branch o && (0 <? v) then
        if in_range o (v - t_off t) then
          Ok (Temp (t_off t) (Some o) (Some n) (jump_bytes o (v - t_off t)), (tab, rs))
        else Abort
      else
        let ty := match o with Jmp => RJal | Call => RCall | Br _ _ _ => RBranch end in
        Ok (t, (tab, rs ++ [Rela (t_off t) ty n]))
  | _, _ => Ok (t, (tab, rs))
  end.
Fixpoint pass2 (sr : symtab * list rela) (l : list temp)
    : res (list temp * (symtab * list rela)) :=
  match l with
  | [] => Ok ([], sr)
  | t :: l =>
      bind (pass2_step sr t) (fun '(t, sr) =>
      bind (pass2 sr l) (fun '(l, sr) => Ok (t :: l, sr)))
  end.

(** elf_riscv64_operation_encodings, riscv64.h 452-673 *)
Definition assemble (l : list item) : res (list (list Z) * list rela) :=
  bind (pass1 (St1 0 [] [] []) l) (fun s =>
  bind (pass2 (syms s, rels s) (temps s)) (fun '(ts, (_, rs)) =>
  Ok (map t_data ts, rs))).
