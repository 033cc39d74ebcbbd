(** ULEB128 fields in the linker for RISC-V: src/ld/ld_elf_riscv_uleb.c.
    A place is the list of the bytes from the field to the end of the section; null pointers are not modelled. *)
From Verif Require Import Base.

(** ld_elf_riscv_uleb.h:8-15 *)
Inductive status := OK | TRUNCATED | FIELD_OVERFLOW | SET_OVERFLOW | SUB_OVERFLOW.

(** UINT64_MAX + 1 *)
Definition M64 : Z := 18446744073709551616.

(** ld_elf_riscv_uleb.c:16-28; None: false *)
Definition add_signed (value addend : Z) : option Z :=
  if 0 <=? addend then
    let amount := addend in
    if M64 - 1 - amount <? value then None else Some ((value + amount) mod M64)
  else
    let amount := (- (addend + 1)) + 1 in
    if value <? amount then None else Some ((value - amount) mod M64).
(** ld_elf_riscv_uleb.c:30-43 *)
Definition subtract_signed (value addend : Z) : option Z :=
  if 0 <=? addend then
    let amount := addend in
    if value <? amount then None else Some ((value - amount) mod M64)
  else
    let amount := (- (addend + 1)) + 1 in
    if M64 - 1 - amount <? value then None else Some ((value + amount) mod M64).

(** ld_elf_riscv_uleb.c:45-60; [l] is place from index i on *)
Fixpoint field_size (l : list Z) (i : nat) : status * nat :=
  match l with
  | [] => (if Nat.ltb i 10 then TRUNCATED else FIELD_OVERFLOW, O)
  | byte :: l =>
      if Nat.leb 10 i then (FIELD_OVERFLOW, O)
      else if Nat.eqb i 9 && (1 <? Z.land byte 127) then (FIELD_OVERFLOW, O)
      else if Z.land byte 128 =? 0 then (OK, S i)
      else field_size l (S i)
  end.

(** ld_elf_riscv_uleb.c:62-69; the loop from index i on, with [width] bytes to go *)
Fixpoint read (l : list Z) (i width : nat) (value : Z) : Z :=
  match width, l with
  | S width, byte :: l => read l (S i) width (Z.lor value (Z.shiftl (Z.land byte 127) (Z.of_nat i * 7) mod M64))
  | _, _ => value
  end.

(** ld_elf_riscv_uleb.c:73-78: replacement, with [width] bytes to go *)
Fixpoint replacement (width : nat) (value : Z) : list Z :=
  match width with
  | O => []
  | S k => (if Nat.eqb k 0 then Z.land value 127 else Z.lor (Z.land value 127) 128) :: replacement k (Z.shiftr value 7)
  end.
(** ld_elf_riscv_uleb.c:71-81 *)
Definition write (place : list Z) (width : nat) (value : Z) : list Z := replacement width value ++ skipn width place.

(** ld_elf_riscv_uleb.c:83-108: the status, *encoded_size and the bytes afterwards *)
Definition apply (place : list Z) (subtract : bool) (symbol_value addend : Z) : status * nat * list Z :=
  match field_size place 0 with
  | (OK, width) =>
      if subtract then
        match subtract_signed symbol_value addend with
        | None => (SUB_OVERFLOW, width, place)
        | Some operand =>
            let current := read place 0 width 0 in
            (OK, width, write place width ((current - operand) mod M64))
        end
      else
        match add_signed symbol_value addend with
        | None => (SET_OVERFLOW, width, place)
        | Some operand => (OK, width, write place width operand)
        end
  | (e, _) => (e, O, place)
  end.

(** ld_elf_riscv_uleb.c:110-134 *)
Definition apply_pair (place : list Z) (set_symbol set_addend sub_symbol sub_addend : Z) : status * nat * list Z :=
  match field_size place 0 with
  | (OK, width) =>
      let repl := firstn width place in
      match apply repl false set_symbol set_addend with
      | (OK, _, repl) =>
          match apply repl true sub_symbol sub_addend with
          | (OK, _, repl) => (OK, width, repl ++ skipn width place)
          | (e, _, _) => (e, width, place)
          end
      | (e, _, _) => (e, width, place)
      end
  | (e, _) => (e, O, place)
  end.
