(** What the instructions of a block do, and what of it can be seen after the block. *)
From Verif Require Import Base Peep_model.

Definition word (z : Z) : Z := z mod 18446744073709551616.

(** Registers, stack and memory are one opaque machine state; float arithmetic, the remaining
    operations and their effects are left open. *)
Record world (M : Type) := mk_world {
  w_reg : nat -> M -> Z;            w_setreg : nat -> Z -> M -> M;
  w_load : Z -> M -> Z;             w_store : Z -> Z -> M -> M;
  w_stack : nat -> M -> Z;          w_setstack : nat -> Z -> M -> M;
  w_other : nat -> M -> Z;          w_setother : nat -> Z -> M -> M;
  w_fadd : Z -> Z -> Z; w_fsub : Z -> Z -> Z; w_fmul : Z -> Z -> Z;
  w_fmadd : Z -> Z -> Z -> Z; w_fmsub : Z -> Z -> Z -> Z; w_fnmsub : Z -> Z -> Z -> Z;
  w_elim : nat -> bool -> Z -> Z -> Z -> Z;
  w_any : nat -> list Z -> M -> Z * M }.
Arguments w_reg {M}. Arguments w_setreg {M}. Arguments w_load {M}. Arguments w_store {M}.
Arguments w_stack {M}. Arguments w_setstack {M}. Arguments w_other {M}. Arguments w_setother {M}.
Arguments w_fadd {M}. Arguments w_fsub {M}. Arguments w_fmul {M}.
Arguments w_fmadd {M}. Arguments w_fmsub {M}. Arguments w_fnmsub {M}.
Arguments w_elim {M}. Arguments w_any {M}. Arguments mk_world {M}.

Section run.
  Context {M : Type}.
  Record state := mk_state { vars : nat -> Z; mach : M }.

  Definition opt_val (s : state) (o : option nat) : Z := match o with Some x => vars s x | None => 0 end.
  Definition address (s : state) (b i : option nat) (scale offset : Z) : Z :=
    word (opt_val s b + opt_val s i * scale + offset).
  Definition value (W : world M) (s : state) (o : option operand) : Z :=
    match o with
    | None => 0
    | Some (OVar x) => vars s x
    | Some (OConst _ v) => v
    | Some (OReg r) => w_reg W r (mach s)
    | Some (OImm z) => word z
    | Some (OFimm v) => v
    | Some (OInd b i sc off) => w_load W (address s b i sc off) (mach s)
    | Some (OStack k) => w_stack W k (mach s)
    | Some (OOther k) => w_other W k (mach s)
    end.
  (** What the instruction computes, and the machine state before the result is stored. *)
  Definition result (W : world M) (s : state) (o : op) : Z * M :=
    let a := value W s (o_first o) in
    let b := value W s (o_second o) in
    let c := value W s (o_addend o) in
    match o_code o with
    | Move => (a, mach s)
    | Add => (if o_float o then w_fadd W a b else word (a + b), mach s)
    | Sub => (if o_float o then w_fsub W a b else word (a - b), mach s)
    | Mul => (if o_float o then w_fmul W a b else word (a * b), mach s)
    | Elim k => (w_elim W k (o_float o) a b c, mach s)
    | Lea => (match o_first o with Some (OInd x i sc off) => address s x i sc off | _ => a end, mach s)
    | Madd => (word (c + a * b), mach s)
    | Msub => (word (c - a * b), mach s)
    | Fmadd => (w_fmadd W a b c, mach s)
    | Fmsub => (w_fmsub W a b c, mach s)
    | Fnmsub => (w_fnmsub W a b c, mach s)
    | Any k => w_any W k (a :: b :: c :: map (vars s) (o_args o)) (mach s)
    end.
  Definition store (W : world M) (s : state) (o : option operand) (v : Z) (m : M) : state :=
    match o with
    | Some (OVar x) | Some (OConst x _) => mk_state (fun y => if Nat.eqb y x then v else vars s y) m
    | Some (OReg r) => mk_state (vars s) (w_setreg W r v m)
    | Some (OInd b i sc off) => mk_state (vars s) (w_store W (address s b i sc off) v m)
    | Some (OStack k) => mk_state (vars s) (w_setstack W k v m)
    | Some (OOther k) => mk_state (vars s) (w_setother W k v m)
    | _ => mk_state (vars s) m
    end.
  Definition exec (W : world M) (s : state) (o : op) : state :=
    let '(v, m) := result W s o in store W s (o_output o) v m.
  Definition run (W : world M) (ops : list op) (s : state) : state := fold_left (exec W) ops s.

  (** After the block only the machine and the variables that are live there can be seen. *)
  Definition looks_same (live_out : list nat) (s t : state) : Prop :=
    mach s = mach t /\ forall x, In x live_out -> vars s x = vars t x.

  (** Fused float instructions round as the two they replace do; doubling is adding; subtracting is
      adding the negation. *)
  Record fused_exact (W : world M) : Prop := {
    fe_add1 : forall a b c, w_fmadd W a b c = w_fadd W (w_fmul W a b) c;
    fe_add2 : forall a b c, w_fmadd W a b c = w_fadd W c (w_fmul W a b);
    fe_sub : forall a b c, w_fmsub W a b c = w_fsub W c (w_fmul W a b);
    fe_nsub : forall a b c, w_fnmsub W a b c = w_fsub W (w_fmul W a b) c;
    fe_neg : forall a v, w_fsub W a v = w_fadd W a (fneg v);
    fe_two1 : forall a, w_fmul W two_bits a = w_fadd W a a;
    fe_two2 : forall a, w_fmul W a two_bits = w_fadd W a a }.
End run.
Arguments state : clear implicits.

(** ** Typed blocks: [fl x] says that the variable x is floating point. *)
Definition operand_typed (fl : nat -> bool) (f : bool) (o : option operand) : bool :=
  match o with
  | Some (OVar x) => Bool.eqb (fl x) f
  | Some (OConst x _) => Bool.eqb (fl x) f && f
  | Some (OImm _) => negb f
  | Some (OFimm _) => f
  | _ => true
  end.
Definition typed (fl : nat -> bool) (o : op) : bool :=
  match o_code o with
  | Add | Sub => operand_typed fl (o_float o) (o_first o) && operand_typed fl (o_float o) (o_second o)
  | Mul => operand_typed fl (o_float o) (o_first o) && operand_typed fl (o_float o) (o_second o)
           && match o_output o with Some (OVar x) | Some (OConst x _) => Bool.eqb (fl x) (o_float o) | _ => true end
  | Move => match o_output o with
            | Some (OVar y) | Some (OConst y _) => operand_typed fl (fl y) (o_first o)
            | _ => match o_first o with Some (OConst x _) => fl x | _ => true end
            end
  | _ => true
  end.
(** After lowering for arm64 both factors are variables if the product is one. *)
Definition factors (o : op) : bool :=
  match o_code o with Mul => negb (is_var (o_output o)) || (is_var (o_first o) && is_var (o_second o)) | _ => true end.
(** A variable flagged constant is flagged wherever it is used, and no arithmetic or move assigns to it;
    [cv x] says whether x is flagged (only NOP_DEF, which the passes leave alone, names it as output). *)
Definition operand_flagged (cv : nat -> bool) (o : option operand) : bool :=
  match o with Some (OVar x) => negb (cv x) | Some (OConst x _) => cv x | _ => true end.
Definition flagged (cv : nat -> bool) (o : op) : bool :=
  operand_flagged cv (o_first o) && operand_flagged cv (o_second o) && operand_flagged cv (o_addend o) &&
  match o_code o with
  | Any _ => true
  | _ => match o_output o with Some (OVar x) => negb (cv x) | Some (OConst _ _) => false | _ => true end
  end.
(** Nothing is doubled: the block has no multiplication, or no constant two to move or multiply by. *)
Definition no_double (ops : list op) : bool :=
  forallb (fun o => negb (is_code (o_code o) Mul)) ops ||
  forallb (fun o => negb (mov_two o) && negb (const_two (o_first o)) && negb (const_two (o_second o))) ops.
(** All variables are older than [n]. *)
Definition older (n : nat) (o : op) : bool :=
  forallb (fun x => Nat.ltb x n) (uses o ++ match o_output o with Some (OVar x) | Some (OConst x _) => [x] | _ => [] end).
(** What lowering for arm64 leaves: [fl] says which variables are floating point, [cv] which are flagged
    constant, and [n] is the next temporary. *)
Definition ok_block (fl cv : nat -> bool) (n : nat) (ops : list op) : Prop :=
  forallb (typed fl) ops = true /\ forallb (flagged cv) ops = true /\ forallb factors ops = true /\ forallb (older n) ops = true.
