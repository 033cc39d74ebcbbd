(** What it means for a RISC-V instruction to refer to an address.  The
    instructions themselves are those of [Rv_spec]. *)
From Coq Require Import ZArith List Bool Lia.
From Verif Require Import Base Rv_model Rv_spec Rvlink_model.
Import ListNotations.
Open Scope Z_scope.

(** bytes and addresses *)
Definition bytes (b : list Z) : Prop := Forall (fun x => 0 <= x < 256) b.
Definition addr64 (a : Z) : Prop := 0 <= a < 2 ^ 64.

(** the distance from [a] to [v]; addresses wrap *)
Definition dist (a v : Z) : Z := sx 64 (v - a).

(** The same instruction with another constant: jumps through a register,
    additions and loads; and stores. *)
Definition with_lo (i : instr) (d : Z) : option instr :=
  match i with
  | IJalr rd rs _ => Some (IJalr rd rs d)
  | IOpI ADD rd rs _ => Some (IOpI ADD rd rs d)
  | ILoad o rd rs _ => Some (ILoad o rd rs d)
  | IFload o rd rs _ => Some (IFload o rd rs d)
  | _ => None
  end.
Definition with_st (i : instr) (d : Z) : option instr :=
  match i with
  | IStore o r2 r1 _ => Some (IStore o r2 r1 d)
  | IFstore o r2 r1 _ => Some (IFstore o r2 r1 d)
  | _ => None
  end.

(** a number of [n] bytes at the place *)
Definition field (n : nat) (b : list Z) : Z := unle (firstn n b).

(** A number in seven-bit groups, and the bytes it takes: every byte but the
    last has its top bit set. *)
Inductive groups : Z -> list Z -> Prop :=
| G_last v : 0 <= v < 128 -> groups v [v]
| G_more v x c : 0 <= x < 128 -> groups v c -> groups (x + 128 * v) ((x + 128) :: c).

(** no shorter way to write it *)
Definition shortest (c : list Z) : Prop := length c = 1%nat \/ last c 0 <> 0.

(** ** Names in the text *)

(** the position of instruction [i] *)
Definition pos (chunks : list (list Z)) (i : nat) : Z :=
  Z.of_nat (length (concat (firstn i chunks))).
Definition one_definition (l : list item) : Prop :=
  forall i j n, nth_error l i = Some (Label n) -> nth_error l j = Some (Label n) -> i = j.
Definition defined (l : list item) (n : nat) : Prop := In (Label n) l.
Definition not_taken_before (l : list item) (i : nat) (n : nat) : Prop :=
  (exists j, (j < i)%nat /\ nth_error l j = Some (Label n)) \/
  (forall j b t, (j < i)%nat -> nth_error l j <> Some (Data b t n)).
(** instructions take two or four bytes *)
Definition even_items (l : list item) : Prop :=
  forall x, In x l ->
    match x with
    | Plain b | Data b _ _ => Z.of_nat (length b) mod 2 = 0
    | Jump (Br _ rs1 rs2) _ => reg rs1 /\ reg rs2
    | _ => True
    end.

(** the jump [c] at [p] goes to [q], [rd] gets nothing *)
Definition lands (o : jop) (c : list Z) (p q : Z) : Prop :=
  match o with
  | Jmp => fetch c = Some (IJal 0 (q - p), 4, [])
  | Br o rs1 rs2 => fetch c = Some (IBr o rs1 rs2 (q - p), 4, [])
  | Call => False
  end.

(** The linked jump or call [c] at address [a] goes to [v]: the call leaves the
    return address in register 1. *)
Definition linked (o : jop) (c : list Z) (a v : Z) : Prop :=
  match o with
  | Jmp => exists d, fetch c = Some (IJal 0 d, 4, []) /\ ux 64 (a + d) = v
  | Br o rs1 rs2 => exists d, fetch c = Some (IBr o rs1 rs2 d, 4, []) /\ ux 64 (a + d) = v
  | Call => forall E s, wf s -> pc s = a ->
      exists t, run E c s = Some t /\ pc t = v /\ getx t 1 = sx 64 (a + 8) /\
        (forall r, r <> 1 -> getx t r = getx s r) /\ mem t = mem s /\ fr t = fr s
  end.
(** how far it can reach *)
Definition reaches (o : jop) (d : Z) : Prop :=
  match o with
  | Jmp => - 2 ^ 20 <= d < 2 ^ 20
  | Br _ _ _ => -4096 <= d < 4096
  | Call => - 2 ^ 31 <= d + 0x800 < 2 ^ 31
  end.

Definition is_defined (l : list item) (n : nat) : bool :=
  existsb (fun x => match x with Label m => Nat.eqb m n | _ => false end) l.
(** the entries the linker needs: one for each data reference, then one for each
    call and each jump to a name that is not defined *)
Fixpoint data_refs (p : Z) (l : list item) (chunks : list (list Z)) : list rela :=
  match l, chunks with
  | x :: l, c :: chunks =>
      match x with Data _ t n => [Rela p t n] | _ => [] end
      ++ data_refs (p + Z.of_nat (length c)) l chunks
  | _, _ => []
  end.
Fixpoint jump_refs (whole : list item) (p : Z) (l : list item) (chunks : list (list Z)) : list rela :=
  match l, chunks with
  | x :: l, c :: chunks =>
      match x with
      | Jump Call n => [Rela p RCall n]
      | Jump Jmp n => if is_defined whole n then [] else [Rela p RJal n]
      | Jump (Br _ _ _) n => if is_defined whole n then [] else [Rela p RBranch n]
      | _ => []
      end ++ jump_refs whole (p + Z.of_nat (length c)) l chunks
  | _, _ => []
  end.
