(** Jumps and calls in amd64 machine code: how an assembler jump to a name
    becomes a displacement or a note for the linker.

    Code modelled: src/binary/arch/amd64.h, elf_amd64_operation_encodings
    (475-667), amd64_rewrite_rel_symbol (102-157), jmp_operation_count (81-92),
    the jump and call entries of the instruction table
    (src/binary/encoding/amd64/opcode.c 18-71), and the relocation R_X86_64_PC32
    (amd64.h 324-345) as called from elf_relocate_section
    (src/binary/elf/linker.c 1155-1189).

    Simplifications, everywhere in this file:
    - the bytes of instructions other than jumps and calls are given;
    - names are numbers; the symbol table is the list of its entries, newest
      first, and holds only what this function puts there (the entry for the
      file name is left out);
    - the functions of a module are one list of instructions, as the function
      treats them (the offset is not reset between them);
    - the table of callers for stack traces is left out. *)
From Coq Require Import ZArith List Bool Lia.
From Verif Require Import Base.
Import ListNotations.
Open Scope Z_scope.

(** ** Instructions *)

(** the conditions that have an entry in the table, opcode.c 24-71 *)
Inductive cc := CE | CNE | CA | CAE | CB | CBE | CG | CGE | CL | CLE.
Inductive jop := Jmp | Jcc (c : cc) | Call.

(** An instruction handed to the function:
    - the definition of a name ("label", amd64.h 497-510);
    - an instruction that refers to no name;
    - an instruction that refers to a name as data, e.g. [lea]: the four bytes
      at [at] are to be filled in by the linker (rip_offset, amd64.h 50-65),
      [tls] for a thread-local name (amd64.h 537-584);
    - a jump or call to a name (amd64.h 522-536). *)
Inductive item :=
| Label (n : nat)
| Plain (bytes : list Z)
| Data (bytes : list Z) (at_ : Z) (tls : bool) (n : nat)
| Jump (o : jop) (n : nat).

(** the operand of a jump once the name is gone *)
Inductive opr := R8 (v : Z) | R32 (v : Z).

(** ** Bytes *)

(** four bytes, low one first: the REL32 immediate *)
Definition le32 (v : Z) : list Z :=
  [v mod 256; (v / 256) mod 256; (v / 65536) mod 256; (v / 16777216) mod 256].

(** second byte of the long form, opcode.c 26-71; the short form is 0x10 less *)
Definition cc_code (c : cc) : Z :=
  match c with
  | CE => 0x84 | CNE => 0x85 | CA => 0x87 | CAE => 0x83 | CB => 0x82
  | CBE => 0x86 | CG => 0x8F | CGE => 0x8D | CL => 0x8C | CLE => 0x8E
  end.
Definition cc_code8 (c : cc) : Z :=
  match c with
  | CE => 0x74 | CNE => 0x75 | CA => 0x77 | CAE => 0x73 | CB => 0x72
  | CBE => 0x76 | CG => 0x7F | CGE => 0x7D | CL => 0x7C | CLE => 0x7E
  end.

(** amd64_asm_inst_encoding on a jump, opcode.c 18-71; there is no short call *)
Definition jump_bytes (o : jop) (p : opr) : res (list Z) :=
  match o, p with
  | Jmp, R8 v => Ok [0xEB; v]
  | Jmp, R32 v => Ok (0xE9 :: le32 v)
  | Jcc c, R8 v => Ok [cc_code8 c; v]
  | Jcc c, R32 v => Ok (0x0F :: cc_code c :: le32 v)
  | Call, R32 v => Ok (0xE8 :: le32 v)
  | Call, R8 _ => Abort
  end.

(** the length of the long form: jmp_operation_count, amd64.h 81-92, and the
    [data_count] of amd64.h 117-120, 135-138 *)
Definition long_len (o : jop) : Z :=
  match o with Call => 5 | Jmp => 5 | Jcc _ => 6 end.

(** the argument [rel_diff] is an [int] *)
Definition int32 (v : Z) : Z := (v + 2 ^ 31) mod 2 ^ 32 - 2 ^ 31.

(** amd64_rewrite_rel_symbol on an operand that is still a name,
    amd64.h 133-156 *)
Definition rewrite_sym (o : jop) (d : Z) : opr :=
  let call := match o with Call => true | _ => false end in
  if (d =? 0) || (129 <? d) || (d <? -126) || call then
    R32 (if d =? 0 then 0 else (d - long_len o) mod 2 ^ 32)
  else R8 ((d - 2) mod 256).

(** amd64_rewrite_rel_symbol on an operand that is a displacement already,
    amd64.h 111-130 *)
Definition rewrite_rel (o : jop) (p : opr) (d : Z) : opr :=
  if d =? 0 then p
  else match p with
       | R32 _ => R32 ((d - long_len o) mod 2 ^ 32)
       | R8 _ => R8 ((d - 2) mod 256)
       end.

(** ** The two passes *)

(** amd64_build_temp_t, amd64.h 15-25: position, jump and its operand, the name
    to look up in the second pass, the bytes *)
Record temp := Temp {
  t_off : Z; t_jump : option (jop * opr); t_rel : option nat; t_data : list Z
}.

(** an entry of .rela.text: position, name, addend, thread-local *)
Record rela := Rela { r_off : Z; r_sym : nat; r_add : Z; r_tls : bool }.

(** the symbol table: name and st_value; an undefined symbol has st_value 0
    (amd64.h 550-557, 634-642) *)
Definition symtab := list (nat * Z).

(** table_get on symtab_hash: elf_put_sym makes the newest entry of a name the
    one that is found (elf/linker.c 831-851) *)
Fixpoint lookup (t : symtab) (n : nat) : option Z :=
  match t with
  | [] => None
  | (m, v) :: t => if Nat.eqb m n then Some v else lookup t n
  end.

Record st1 := St1 {
  off : Z; syms : symtab; temps : list temp; rels : list rela
}.

(** one instruction of the first pass, amd64.h 487-622 *)
Definition pass1_step (s : st1) (x : item) : res st1 :=
  match x with
  | Label n =>
      Ok (St1 (off s) ((n, off s) :: syms s)
              (temps s ++ [Temp (off s) None None []]) (rels s))
  | Plain b =>
      Ok (St1 (off s + Z.of_nat (length b)) (syms s)
              (temps s ++ [Temp (off s) None None b]) (rels s))
  | Data b k tls n =>
      let syms' := match lookup (syms s) n with
                   | Some _ => syms s
                   | None => (n, 0) :: syms s
                   end in
      let add := if tls then 0
                 else off s + Z.of_nat (length b) - (off s + k) in
      Ok (St1 (off s + Z.of_nat (length b)) syms'
              (temps s ++ [Temp (off s) None None b])
              (rels s ++ [Rela (off s + k) n (- add) tls]))
  | Jump o n =>
      let '(p, rel) :=
        match lookup (syms s) n with
        | Some v => (rewrite_sym o (int32 (v - off s)), None)
        | None => (rewrite_sym o 0, Some n)
        end in
      bind (jump_bytes o p) (fun b =>
      Ok (St1 (off s + Z.of_nat (length b)) (syms s)
              (temps s ++ [Temp (off s) (Some (o, p)) rel b]) (rels s)))
  end.
Fixpoint pass1 (s : st1) (l : list item) : res st1 :=
  match l with
  | [] => Ok s
  | x :: l => bind (pass1_step s x) (fun s => pass1 s l)
  end.

(** one instruction of the second pass, amd64.h 625-663 *)
Definition pass2_step (sr : symtab * list rela) (t : temp)
    : res (temp * (symtab * list rela)) :=
  let '(tab, rs) := sr in
  match t_rel t, t_jump t with
  | Some n, Some (o, p) =>
      let '(tab, v) := match lookup tab n with
                       | Some v => (tab, v)
                       | None => ((n, 0) :: tab, 0)
                       end in
      if 0 <? v then
        let p' := rewrite_rel o p (int32 (v - t_off t)) in
        bind (jump_bytes o p') (fun b =>
        if Nat.eqb (length b) (length (t_data t)) then
          Ok (Temp (t_off t) (Some (o, p')) (Some n) b, (tab, rs))
        else Abort)
      else
        Ok (t, (tab, rs ++ [Rela (t_off t + (Z.of_nat (length (t_data t)) - 4)) n (-4) false]))
  | _, _ => Ok (t, (tab, rs))
  end.
Fixpoint pass2 (sr : symtab * list rela) (l : list temp)
    : res (list temp * (symtab * list rela)) :=
  match l with
  | [] => Ok ([], sr)
  | t :: l =>
      bind (pass2_step sr t) (fun '(t, sr) =>
      bind (pass2 sr l) (fun '(l, sr) => Ok (t :: l, sr)))
  end.

(** elf_amd64_operation_encodings, amd64.h 475-676: the bytes of each
    instruction, in order, and the entries for the linker.  The text section is
    the concatenation (amd64.h 666-675). *)
Definition assemble (l : list item) : res (list (list Z) * list rela) :=
  bind (pass1 (St1 0 [] [] []) l) (fun s =>
  bind (pass2 (syms s, rels s) (temps s)) (fun '(ts, (_, rs)) =>
  Ok (map t_data ts, rs))).

(** ** The linker *)

(** read32le / add32le / write32le on four bytes, and R_X86_64_PC32,
    amd64.h 324-345: [addr] is where the four bytes will be, [val] the symbol's
    address plus the addend (elf/linker.c 1179-1187) *)
Definition read32 (b : list Z) : Z :=
  match b with
  | [b0; b1; b2; b3] => b0 + 256 * b1 + 65536 * b2 + 16777216 * b3
  | _ => 0
  end.
Definition relocate_pc32 (b : list Z) (addr val : Z) : res (list Z) :=
  let diff := (val - addr + 2 ^ 63) mod 2 ^ 64 - 2 ^ 63 in
  if (diff <? - 2147483648) || (2147483647 <? diff) then Abort
  else Ok (le32 ((read32 b + diff) mod 2 ^ 32)).

(** elf_relocate_section on one entry for a jump: the last four bytes of its
    [c] are patched; [base] is the address of the text section *)
Definition link_jump (base : Z) (c : list Z) (r : rela) (pos sym : Z) : res (list Z) :=
  let k := Z.to_nat (r_off r - pos) in
  bind (relocate_pc32 (firstn 4 (skipn k c)) (base + r_off r) (sym + r_add r)) (fun b =>
  Ok (firstn k c ++ b ++ skipn (k + 4) c)).
