(** What a set of moves means when all of them happen at once. *)
From Verif Require Import Base Pmove_model.

(** What memory holds and what operations compute is left open.  Moves do not write memory. *)
Record machine (V : Type) := mk_machine { load : Z -> list V -> V; known : Z -> V; compute : Z -> option V -> option V -> V }.
Arguments load {V}. Arguments known {V}. Arguments compute {V}.

Definition store V := loc -> V.
Definition value {V} (m : machine V) (s : store V) (o : operand) : V :=
  match o with
  | Place l => s l
  | Mem regs k => load m k (map s regs)
  | Other k => known m k
  end.
Definition result {V} (m : machine V) (s : store V) (o : op) : V :=
  match code o, first o with
  | 0, Some a => value m s a
  | c, a => compute m c (option_map (value m s) a) (option_map (value m s) (second o))
  end.
(** one operation after the other *)
Definition set {V} (s : store V) (l : loc) (v : V) : store V := fun x => if loc_eqb x l then v else s x.
Fixpoint run {V} (m : machine V) (l : list op) (s : store V) : store V :=
  match l with
  | [] => s
  | o :: l => run m l (set s (out o) (result m s o))
  end.

(** all at once: every place written holds what its operation computes from the values before, and every other place,
    except the two registers kept for this, is as before *)
Definition at_once {V} (m : machine V) (ti tf : nat) (moves : list op) (s s' : store V) : Prop :=
  (forall o, In o moves -> s' (out o) = result m s o) /\
  (forall l, ~ In l (map out moves) -> l <> IReg ti -> l <> FReg tf -> s' l = s l).

(** the places an operand depends on *)
Definition places (o : option operand) : list loc := match o with Some (Place l) => [l] | Some (Mem regs _) => regs | _ => [] end.
Definition reads (o : op) (l : loc) : Prop := In l (places (first o)) \/ In l (places (second o)).

(** the moves of one point: places are written once; addresses are made of registers; the two registers are not used *)
Definition is_moves (ti tf : nat) (moves : list op) : Prop :=
  NoDup (map out moves) /\
  (forall o, In o moves -> out o <> IReg ti /\ out o <> FReg tf /\ ~ reads o (IReg ti) /\ ~ reads o (FReg tf)) /\
  (forall o regs k, In o moves -> first o = Some (Mem regs k) \/ second o = Some (Mem regs k) -> Forall (fun r => is_reg r = true) regs) /\
  (forall o, In o moves -> code o = 0 -> first o <> None /\ second o = None).

(** every operation depends on at most one place that another one writes, and through one operand only *)
Definition one_conflict (moves : list op) : Prop :=
  forall o, In o moves ->
    (forall p q, In p moves -> In q moves -> p <> o -> q <> o -> reads o (out p) -> reads o (out q) -> p = q) /\
    (forall p q, In p moves -> In q moves -> p <> o -> q <> o -> In (out p) (places (first o)) -> In (out q) (places (second o)) -> first o = second o).

(** ** an edge *)
(** the place of an interval: its register, or the slot of its variable *)
Definition place (i : ivl) : nat + nat := match assigned i with Some r => inl r | None => inr (var i) end.
Definition put {V} (s : nat + nat -> V) (l : nat + nat) (v : V) : nat + nat -> V :=
  fun x => match x, l with inl a, inl b | inr a, inr b => if Nat.eqb a b then v else s x | _, _ => s x end.
Fixpoint run_moves {V} (l : list (ivl * ivl)) (s : nat + nat -> V) : nat + nat -> V :=
  match l with
  | [] => s
  | (from, to) :: l => run_moves l (put s (place to) (s (place from)))
  end.

(** the moves of an edge: registers are between 1 and 254; a variable comes from one place and a register holds one
    variable; places are written once; a stack slot is written only by the variable it belongs to, from a register *)
Definition is_edge (l : list (ivl * ivl)) : Prop :=
  (forall f t r, In (f, t) l -> assigned f = Some r \/ assigned t = Some r -> (0 < r < 255)%nat) /\
  (forall f t f' t', In (f, t) l -> In (f', t') l -> (var f = var f' <-> place f = place f')) /\
  NoDup (map (fun p => place (snd p)) l) /\
  (forall f t, In (f, t) l -> assigned t = None -> var t = var f /\ assigned f <> None).
