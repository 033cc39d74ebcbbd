(** What a block of instructions does, and when its order may be changed. *)
From Coq Require Import Permutation.
From Verif Require Import Base Sched_model.
Local Open Scope nat_scope.

(** Places an instruction can read or write.  All memory, with the global variables, is one place. *)
Inductive place := PVar (x : nat) | PReg (r : nat) | PMem.
Definition place_eqb (a b : place) : bool :=
  match a, b with
  | PVar x, PVar y => Nat.eqb x y
  | PReg x, PReg y => Nat.eqb x y
  | PMem, PMem => true
  | _, _ => false
  end.
Definition isin (p : place) (l : list place) : bool := existsb (place_eqb p) l.

Definition inside (o : option operand) : list place :=
  match o with
  | None | Some (OImm _) => []
  | Some (OVar x) => [PVar x]
  | Some (OReg r) => [PReg r]
  | Some (ORegs rs) => map PReg rs
  | Some (OSym _) => [PMem]
  | Some (OInd vs) => PMem :: map PVar vs
  end.
Definition reads (o : op) : list place :=
  inside (o_first o) ++ inside (o_second o) ++ inside (o_addend o) ++
  match o_output o with Some (OSym _) | Some (OInd _) => inside (o_output o) | _ => [] end.
Definition writes (o : op) : list place :=
  match o_output o with
  | None | Some (OImm _) => []
  | Some (OVar x) => [PVar x]
  | Some (OReg r) => [PReg r]
  | Some (ORegs rs) => map PReg rs
  | Some (OSym _) | Some (OInd _) => [PMem]
  end.

(** The instructions nothing may move over: where control enters or leaves, calls, and the marks of a
    function, of `phi` and of the collector. *)
Definition stays (o : op) : bool :=
  match o_code o with
  | Call | RtCall => true
  | Label | Branch _ | Ret | Return => true
  | FnBegin | FnEnd | Phi | Safepoint => true
  | _ => false
  end.

(** The meaning of the instructions is left open: an ordinary one computes what it writes from what
    it reads, a fixed one (call, label, branch, ...) does anything to the whole state. *)
Record world (V : Type) := mk_world {
  w_sem : op -> list V -> place -> V;
  w_fix : op -> (place -> V) -> (place -> V) }.
Arguments w_sem {V}. Arguments w_fix {V}. Arguments mk_world {V}.

Section run.
  Context {V : Type}.
  Definition same (s t : place -> V) : Prop := forall p, s p = t p.
  (** What a fixed instruction does depends on the contents of the places only. *)
  Definition proper (W : world V) : Prop := forall o s t, same s t -> same (w_fix W o s) (w_fix W o t).

  Definition exec (W : world V) (o : op) (s : place -> V) : place -> V :=
    if stays o then w_fix W o s
    else fun p => if isin p (writes o) then w_sem W o (map s (reads o)) p else s p.
  Fixpoint run (W : world V) (ops : list op) (s : place -> V) : place -> V :=
    match ops with
    | [] => s
    | o :: ops' => run W ops' (exec W o s)
    end.
End run.

(** The instructions up to the next fixed one. *)
Fixpoint until (ops : list op) : list op :=
  match ops with
  | [] => []
  | o :: ops' => if stays o then [] else o :: until ops'
  end.

(** A later instruction of the same stretch writes a variable again only if it also reads it, and the
    earlier one that mentions the variable wrote it. *)
Definition var_after (o : op) (l : list op) : bool :=
  forallb (fun p => forallb (fun x =>
    match x with
    | PVar _ => negb (isin x (reads o ++ writes o)) || (isin x (writes o) && isin x (reads p))
    | _ => true
    end) (writes p)) l.
(** A register is read at most once between two writes. *)
Fixpoint alone (r : place) (l : list op) : bool :=
  match l with
  | [] => true
  | p :: l' =>
      if isin r (writes p) then negb (isin r (reads p))
      else if isin r (reads p) then negb (existsb (fun q => isin r (writes q)) l')
      else alone r l'
  end.
Definition reg_after (o : op) (l : list op) : bool :=
  forallb (fun x => match x with PReg _ => isin x (writes o) || alone x l | _ => true end) (reads o).
(** Instructions that share memory, one of them writing, do it through addresses, not by the name of a
    global variable. *)
Definition by_address (o : op) : bool := is_ind (o_first o) || is_ind (o_second o) || is_ind (o_output o).
Definition mem_after (o : op) (l : list op) : bool :=
  forallb (fun p =>
    negb (isin PMem (reads o ++ writes o) && isin PMem (reads p ++ writes p)
          && (isin PMem (writes o) || isin PMem (writes p)))
    || (by_address o && by_address p)) l.

Fixpoint orderly (ops : list op) : bool :=
  match ops with
  | [] => true
  | o :: l =>
      (if stays o then true
       else var_after o (until l) && reg_after o (until l) && mem_after o (until l)) && orderly l
  end.

(** The same instructions, each fixed one in its place, the others moved between them. *)
Inductive moved : list op -> list op -> Prop :=
| M_last a b : forallb (fun o => negb (stays o)) a = true -> Permutation a b -> moved a b
| M_fixed a b o l m : forallb (fun o => negb (stays o)) a = true -> Permutation a b ->
    stays o = true -> moved l m -> moved (a ++ o :: l) (b ++ o :: m).
