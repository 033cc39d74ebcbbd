(** What it means to execute the code of a function, and what a control flow graph is. *)
From Verif Require Import Base Cfg_model.

(** What operations do and how comparisons turn out is left open.  The world may remember everything that
    happened. *)
Record machine (W : Type) := mk_machine { effect : Z -> W -> W; taken : Z -> W -> bool }.
Arguments effect {W}. Arguments taken {W}.

(** the code from a label on *)
Fixpoint target (code : list instr) (n : nat) : option (list instr) :=
  match code with
  | [] => None
  | i :: rest => match i with Label m => if Nat.eqb m n then Some code else target rest n | _ => target rest n end
  end.

(** one step; look yields the code to go on with after a jump.  There is no step at the end of the function, at the
    end of the code and where a jump leads nowhere. *)
Definition step {W} (m : machine W) (look : nat -> option (list instr)) (r : list instr) (w : W) : option (list instr * W) :=
  match r with
  | [] => None
  | Label _ :: r => Some (r, w)
  | Bal n :: _ => option_map (fun r => (r, w)) (look n)
  | Branch k n :: r => if taken m k w then option_map (fun r => (r, w)) (look n) else Some (r, w)
  | Return k :: r | Plain k :: r => Some (r, effect m k w)
  | End :: _ => None
  end.
Fixpoint steps {W} (m : machine W) (look : nat -> option (list instr)) (k : nat) (r : list instr) (w : W) : option (list instr * W) :=
  match k with
  | O => Some (r, w)
  | S k => match step m look r w with None => None | Some (r, w) => steps m look k r w end
  end.

(** the world that code, started in w, comes to after some steps, and the one at the end of the function *)
Definition reaches {W} (m : machine W) (code : list instr) (w w' : W) : Prop :=
  exists k r, steps m (target code) k code w = Some (r, w').
Definition finishes {W} (m : machine W) (code : list instr) (w w' : W) : Prop :=
  exists k r, steps m (target code) k code w = Some (End :: r, w').
Definition same_behaviour (c1 c2 : list instr) : Prop :=
  forall W (m : machine W) w w', (reaches m c1 w w' <-> reaches m c2 w w') /\ (finishes m c1 w w' <-> finishes m c2 w w').

(** the labels and the places jumped to *)
Definition labels (l : list instr) : list nat := flat_map (fun i => match i with Label n => [n] | _ => [] end) l.
Definition jumps (l : list instr) : list nat := flat_map (fun i => match i with Bal n | Branch _ n => [n] | _ => [] end) l.

(** the code of a function: it begins with a label and ends with the end of the function, labels are unique, jumps
    lead to labels, and next is not in use *)
Definition is_code (code : list instr) (next : nat) : Prop :=
  (exists n c, code = Label n :: c) /\ (exists c, code = c ++ [End]) /\ NoDup (labels code) /\
  (forall n, In n (jumps code) -> In n (labels code)) /\ (forall n, In n (labels code) -> (n < next)%nat).

(** a way through the blocks, from the first one *)
Inductive reachable (bs : list bb) : nat -> Prop :=
| reach_entry b l : bs = b :: l -> reachable bs (bname b)
| reach_succ b n : In b bs -> reachable bs (bname b) -> In n (bsuccs b) -> reachable bs n.

(** a control flow graph: every block begins with its label and has no other, names are unique, successors are
    the places a block jumps to, predecessors the blocks that jump to it, each listed once *)
Definition is_cfg (bs : list bb) : Prop :=
  NoDup (map bname bs) /\
  forall b, In b bs ->
    (exists r, bops b = Label (bname b) :: r /\ labels r = []) /\
    (forall t, In t (bsuccs b) <-> In t (jumps (bops b))) /\ NoDup (bsuccs b) /\ incl (bsuccs b) (map bname bs) /\
    (forall p, In p (bpreds b) <-> exists x, In x bs /\ bname x = p /\ In (bname b) (bsuccs x)) /\ NoDup (bpreds b).

(** an edge from a block with several successors to a block with several predecessors *)
Definition critical (bs : list bb) (p b : bb) : Prop :=
  In p bs /\ In b bs /\ In (bname b) (bsuccs p) /\ (1 < length (bsuccs p))%nat /\ (1 < length (bpreds b))%nat.

(** a way from the first block to a block, none of which returns *)
Definition returns (b : bb) : Prop := exists k, In (Return k) (bops b).
Inductive without_return (bs : list bb) : bb -> Prop :=
| wr_entry b l : bs = b :: l -> ~ returns b -> without_return bs b
| wr_succ b s : without_return bs b -> In s bs -> In (bname s) (bsuccs b) -> ~ returns s -> without_return bs s.

(** a machine that also notes the operations it executes *)
Definition traced {W} (m : machine W) : machine (W * list Z) := mk_machine _ (fun k '(w, tr) => (effect m k w, k :: tr)) (fun k '(w, tr) => taken m k w).

(** the code leaves the function in one place, after the label fe *)
Definition leaves_at (fe : nat) (code : list instr) : Prop :=
  exists c d, code = c ++ Label fe :: d ++ [End] /\ ~ In End c /\ Forall (fun i => exists k, i = Plain k) d.
