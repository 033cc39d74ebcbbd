(** What a jump in amd64 machine code does, from the processor manual. *)
From Coq Require Import ZArith List Bool Lia.
From Verif Require Import Base Jumps_model.
Import ListNotations.
Open Scope Z_scope.

(** signed reading of [n]-byte numbers *)
Definition s8 (b : Z) : Z := if b <? 128 then b else b - 256.
Definition s32 (b0 b1 b2 b3 : Z) : Z :=
  let v := b0 + 256 * b1 + 65536 * b2 + 16777216 * b3 in
  if v <? 2 ^ 31 then v else v - 2 ^ 32.

(** condition codes: the low four bits of the opcode *)
Definition cond (k : Z) : option cc :=
  match k with
  | 2 => Some CB | 3 => Some CAE | 4 => Some CE | 5 => Some CNE
  | 6 => Some CBE | 7 => Some CA | 12 => Some CL | 13 => Some CGE
  | 14 => Some CLE | 15 => Some CG | _ => None
  end.

(** A jump instruction that fills all of [b]: what it is, and its displacement,
    which counts from the end of the instruction. *)
Definition decode_jump (b : list Z) : option (jop * Z) :=
  match b with
  | [0xEB; d] => Some (Jmp, s8 d)
  | [0xE9; a; b; c; d] => Some (Jmp, s32 a b c d)
  | [0xE8; a; b; c; d] => Some (Call, s32 a b c d)
  | [op; d] =>
      if op / 16 =? 7 then
        match cond (op mod 16) with Some c => Some (Jcc c, s8 d) | None => None end
      else None
  | [0x0F; op; a; b; c; d] =>
      if op / 16 =? 8 then
        match cond (op mod 16) with Some k => Some (Jcc k, s32 a b c d) | None => None end
      else None
  | _ => None
  end.

(** the position of instruction [i] in the text *)
Definition pos (chunks : list (list Z)) (i : nat) : Z :=
  Z.of_nat (length (concat (firstn i chunks))).

(** Where the jump [b] at position [p] goes. *)
Definition goes_to (b : list Z) (p : Z) : option (jop * Z) :=
  match decode_jump b with
  | Some (o, d) => Some (o, p + Z.of_nat (length b) + d)
  | None => None
  end.

(** no name is defined twice *)
Definition one_definition (l : list item) : Prop :=
  forall i j n, nth_error l i = Some (Label n) -> nth_error l j = Some (Label n) -> i = j.
Definition defined (l : list item) (n : nat) : Prop := In (Label n) l.

(** no instruction before [i] refers to [n] as data, unless [n] is defined
    before [i] *)
Definition not_taken_before (l : list item) (i : nat) (n : nat) : Prop :=
  (exists j, (j < i)%nat /\ nth_error l j = Some (Label n)) \/
  (forall j b k t, (j < i)%nat -> nth_error l j <> Some (Data b k t n)).

(** The entries the linker needs: one for each data reference, then one for
    each jump to a name that is not defined, with the position of the four
    bytes to fill in. *)
Definition is_defined (l : list item) (n : nat) : bool :=
  existsb (fun x => match x with Label m => Nat.eqb m n | _ => false end) l.
Fixpoint data_refs (p : Z) (l : list item) (chunks : list (list Z)) : list rela :=
  match l, chunks with
  | x :: l, c :: chunks =>
      match x with
      | Data _ k tls n =>
          [Rela (p + k) n (if tls then 0 else k - Z.of_nat (length c)) tls]
      | _ => []
      end ++ data_refs (p + Z.of_nat (length c)) l chunks
  | _, _ => []
  end.
Fixpoint jump_refs (whole : list item) (p : Z) (l : list item) (chunks : list (list Z)) : list rela :=
  match l, chunks with
  | x :: l, c :: chunks =>
      match x with
      | Jump _ n =>
          if is_defined whole n then []
          else [Rela (p + Z.of_nat (length c) - 4) n (-4) false]
      | _ => []
      end ++ jump_refs whole (p + Z.of_nat (length c)) l chunks
  | _, _ => []
  end.
